(** C36: cost-sensitive classification. *)
From Coq Require Import List Arith Bool ZArith String Lia Permutation.
From Verif Require Import Model_FeatureVector Model_Data Model_Terminal Spec_Tree Proofs_View Model_CostSensitive.
Import ListNotations.
Local Open Scope list_scope.
Local Open Scope nat_scope.

(** * Specification *)

(** The original feature (position in the list of specifications) that binary feature [f]
    comes from. *)
Fixpoint attr_from (i : nat) (specs : list fcs) (f : nat) : option nat :=
  match specs with
  | [] => None
  | s :: r => if (fc_lo s <=? f) && (f <=? fc_hi s) then Some i else attr_from (S i) r f
  end.
Definition attr (specs : list fcs) (f : nat) : option nat := attr_from 0 specs f.
Definition spec_of (specs : list fcs) (a : nat) : fcs := nth a specs (FCS 0 0 "" 0 0).

(** The bill for a sequence of tests, when the original features [bought] are already paid:
    a feature that was bought before is free; the first one of its group costs the full
    price, every further one of the group the discount price. *)
Definition price (specs : list fcs) (bought : list nat) (a : nat) : Z :=
  if existsb (Nat.eqb a) bought then 0%Z
  else if existsb (fun b => String.eqb (fc_group (spec_of specs b)) (fc_group (spec_of specs a))) bought
       then fc_disc (spec_of specs a) else fc_cost (spec_of specs a).
Fixpoint bill (specs : list fcs) (bought : list nat) (path : list nat) : Z :=
  match path with
  | [] => 0%Z
  | f :: p => match attr specs f with
              | Some a => (price specs bought a + bill specs (a :: bought) p)%Z
              | None => bill specs bought p
              end
  end.

(** The specifications divide the binary features 0 .. n-1 among the original features. *)
Definition divides (specs : list fcs) : Prop :=
  Forall (fun s => fc_lo s <= fc_hi s) specs /\ NoDup (flat_map range specs) /\
  Forall (fun f => f < num_binary specs) (flat_map range specs).

(** The features tested for an instance by a tree. *)
Fixpoint tests (t : tree) (x : inst) : list nat :=
  match t with
  | Leaf _ => []
  | Split f l r => f :: (if has f x then tests r x else tests l x)
  end.

(** * Arrays *)
Lemma set_nth_len (A : Type) k (x : A) l : List.length (set_nth k x l) = List.length l.
Proof. revert k; induction l as [|a l IH]; intros [|k]; cbn; auto. Qed.
Lemma set_nth_nth (A : Type) k (x : A) l j d : k < List.length l -> nth j (set_nth k x l) d = if j =? k then x else nth j l d.
Proof. revert k j; induction l as [|a l IH]; intros [|k] [|j] H; cbn in *; try lia; try reflexivity. apply IH. lia. Qed.
Lemma nth_repeat0 (A : Type) (x : A) n j : nth j (repeat x n) x = x.
Proof. revert j; induction n as [|n IH]; intros [|j]; cbn; auto. Qed.

Definition get (n : nat) (m : list bool) (a b : nat) : bool := nth (a * n + b) m false.
Lemma cell_lt n a b : a < n -> b < n -> a * n + b < n * n.
Proof. intros H1 H2. assert (a * n <= (n - 1) * n) by (apply Nat.mul_le_mono_r; lia). assert ((n - 1) * n = n * n - n) by (rewrite Nat.mul_sub_distr_r; lia). assert (n <= n * n) by (destruct n; [lia|]; cbn; lia). lia. Qed.
Lemma cell_inj n a b c d : b < n -> d < n -> a * n + b = c * n + d -> a = c /\ b = d.
Proof.
  intros H1 H2 E. assert (a = c).
  { assert (X : (a * n + b) / n = a) by (rewrite Nat.div_add_l by lia; rewrite Nat.div_small by lia; lia).
    assert (Y : (c * n + d) / n = c) by (rewrite Nat.div_add_l by lia; rewrite Nat.div_small by lia; lia). congruence. }
  subst. lia.
Qed.
Lemma get_set n m a b c d : a < n -> b < n -> c < n -> d < n -> List.length m = n * n ->
  get n (set_nth (c * n + d) true m) a b = get n m a b || ((a =? c) && (b =? d)).
Proof.
  intros A B C D L. unfold get. rewrite set_nth_nth by (rewrite L; now apply cell_lt).
  destruct (Nat.eqb_spec (a * n + b) (c * n + d)) as [E|E].
  - destruct (cell_inj n a b c d B D E) as [-> ->]. rewrite !Nat.eqb_refl. now rewrite orb_true_r.
  - destruct (Nat.eqb_spec a c) as [->|]; destruct (Nat.eqb_spec b d) as [->|]; try (now elim E); cbn; now rewrite orb_false_r.
Qed.
Lemma mark_len n f m g : List.length (mark n f m g) = List.length m.
Proof. unfold mark. now rewrite !set_nth_len. Qed.
Lemma get_mark n m a b f g : a < n -> b < n -> f < n -> g < n -> List.length m = n * n ->
  get n (mark n f m g) a b = get n m a b || ((a =? f) && (b =? g)) || ((a =? g) && (b =? f)).
Proof. intros A B F G L. unfold mark. rewrite get_set by (try assumption; now rewrite set_nth_len). now rewrite get_set. Qed.
Lemma fold_mark_len n f gs : forall m, List.length (fold_left (mark n f) gs m) = List.length m.
Proof. induction gs as [|g gs IH]; intros m; cbn; [reflexivity|]. now rewrite IH, mark_len. Qed.
Lemma fold_mark n f gs : f < n -> Forall (fun g => g < n) gs -> forall m a b, a < n -> b < n -> List.length m = n * n ->
  (get n (fold_left (mark n f) gs m) a b = true <-> get n m a b = true \/ (a = f /\ In b gs) \/ (b = f /\ In a gs)).
Proof.
  intros F A. induction gs as [|g gs IH]; intros m a b HA HB L; cbn [fold_left].
  - split; [now left|]. intros [H|[[_ []]|[_ []]]]. exact H.
  - inversion_clear A as [|? ? G A']. rewrite (IH A' (mark n f m g) a b HA HB) by now rewrite mark_len.
    rewrite get_mark by assumption. rewrite !orb_true_iff, !andb_true_iff, !Nat.eqb_eq. cbn [In].
    split; intros H; intuition congruence.
Qed.

(** * The tables *)
Definition ops (specs : list fcs) : list (fcs * nat) := flat_map (fun s => map (pair s) (range s)) specs.
Definition step (n : nat) (st : tables * gmap) (o : fcs * nat) : tables * gmap := init_feature n (fst o) st (snd o).

Lemma fold_left_flat (A B C : Type) (g : A -> B -> A) (h : C -> list B) l : forall a,
  fold_left (fun a c => fold_left g (h c) a) l a = fold_left g (flat_map h l) a.
Proof. induction l as [|c l IH]; intros a; cbn; [reflexivity|]. now rewrite fold_left_app, IH. Qed.
Lemma init_ops n specs st : fold_left (init_spec n) specs st = fold_left (step n) (ops specs) st.
Proof.
  unfold ops. revert st. induction specs as [|s r IH]; intros st; [reflexivity|]. cbn [fold_left flat_map].
  rewrite fold_left_app, <- IH. f_equal. unfold init_spec.
  generalize (range s) as l. intros l. revert st. clear IH. induction l as [|f l IH]; intros st; cbn; [reflexivity|]. apply IH.
Qed.

Lemma gm_get_push g h f m : gm_get g (gm_push h f m) = if String.eqb g h then gm_get g m ++ [f] else gm_get g m.
Proof.
  induction m as [|[k l] m IH]; cbn.
  - now destruct (String.eqb_spec g h).
  - destruct (String.eqb_spec h k) as [->|N]; cbn.
    + destruct (String.eqb g k); reflexivity.
    + rewrite IH. destruct (String.eqb_spec g k) as [->|]; [|reflexivity].
      destruct (String.eqb_spec k h); [now elim N|reflexivity].
Qed.

Definition covers (s : fcs) (f : nat) : Prop := In f (range s).
Record inv (n : nat) (done : list (fcs * nat)) (st : tables * gmap) : Prop := {
  i_len : List.length (tb_cost (fst st)) = n /\ List.length (tb_disc (fst st)) = n /\ List.length (tb_group (fst st)) = n * n /\ List.length (tb_bin (fst st)) = n * n;
  i_cost : forall s f, In (s, f) done -> nth f (tb_cost (fst st)) 0%Z = fc_cost s /\ nth f (tb_disc (fst st)) 0%Z = fc_disc s;
  i_bin : forall a b, a < n -> b < n -> (get n (tb_bin (fst st)) a b = true <-> exists s f, In (s, f) done /\ covers s a /\ covers s b /\ (a = f \/ b = f));
  i_map : forall g f, In f (gm_get g (snd st)) <-> exists s, In (s, f) done /\ fc_group s = g;
  i_group : forall a b, a < n -> b < n -> (get n (tb_group (fst st)) a b = true <-> a <> b /\ exists s1 s2, In (s1, a) done /\ In (s2, b) done /\ fc_group s1 = fc_group s2) }.

Lemma fold_mark_if n f gs : Forall (fun g => g < n) gs -> forall m, fold_left (fun b f2 => if n <=? f2 then b else mark n f b f2) gs m = fold_left (mark n f) gs m.
Proof.
  induction gs as [|g gs IH]; intros A m; [reflexivity|]. inversion_clear A. cbn [fold_left].
  assert (E : (n <=? g) = false) by (apply Nat.leb_gt; assumption). rewrite E. now apply IH.
Qed.

Lemma inv_step n done st s f : inv n done st -> f < n -> Forall (fun g => g < n) (range s) -> covers s f ->
  (forall s', ~ In (s', f) done) -> (forall s' f', In (s', f') done -> f' < n) -> inv n (done ++ [(s, f)]) (step n st (s, f)).
Proof.
  intros [[L1 [L2 [L3 L4]]] HC HB HM HG] F R C FR LT. destruct st as [t m]. cbn [fst snd] in *.
  unfold step, init_feature. cbn [fst snd]. assert (E : (n <=? f) = false) by now apply Nat.leb_gt. rewrite E.
  assert (GL : Forall (fun g => g < n) (gm_get (fc_group s) m)).
  { apply Forall_forall. intros g I. apply HM in I. destruct I as [s' [I _]]. now apply (LT s'). }
  constructor; cbn [fst snd tb_cost tb_disc tb_group tb_bin].
  - rewrite !set_nth_len, fold_mark_len, fold_mark_if, fold_mark_len by assumption. auto.
  - intros s' f' I. rewrite in_app_iff in I. rewrite !set_nth_nth by (rewrite ?L1, ?L2; assumption).
    destruct I as [I|[I|[]]].
    + destruct (Nat.eqb_spec f' f) as [->|]; [now elim (FR s')|]. now apply HC.
    + injection I as <- <-. now rewrite Nat.eqb_refl.
  - intros a b A B. rewrite fold_mark_if by assumption. rewrite (fold_mark n f (range s)) by assumption. rewrite HB by assumption. split.
    + intros [[s' [f' [I H]]]|[[-> I]|[-> I]]].
      * exists s', f'. rewrite in_app_iff. tauto.
      * exists s, f. rewrite in_app_iff. cbn. unfold covers in *. tauto.
      * exists s, f. rewrite in_app_iff. cbn. unfold covers in *. tauto.
    + intros [s' [f' [I [H1 [H2 H3]]]]]. rewrite in_app_iff in I. destruct I as [I|[I|[]]].
      * left. exists s', f'. tauto.
      * injection I as <- <-. destruct H3 as [->| ->]; [right; left|right; right]; split; auto.
  - intros g f'. rewrite gm_get_push. destruct (String.eqb_spec g (fc_group s)) as [->|N].
    + rewrite in_app_iff, HM. split.
      * intros [[s' [I H]]|[<-|[]]]; [exists s'; rewrite in_app_iff; tauto|exists s; rewrite in_app_iff; cbn; tauto].
      * intros [s' [I H]]. rewrite in_app_iff in I. destruct I as [I|[I|[]]]; [left; exists s'; tauto|]. injection I as <- <-. right. now left.
    + rewrite HM. split.
      * intros [s' [I H]]. exists s'. rewrite in_app_iff. tauto.
      * intros [s' [I H]]. rewrite in_app_iff in I. destruct I as [I|[I|[]]]; [exists s'; tauto|]. injection I as <- <-. congruence.
  - intros a b A B. rewrite (fold_mark n f) by assumption. rewrite HG by assumption. rewrite !HM. split.
    + intros [[NE [s1 [s2 [I1 [I2 H]]]]]|[[-> [s' [I H]]]|[-> [s' [I H]]]]].
      * split; [exact NE|]. exists s1, s2. rewrite !in_app_iff. tauto.
      * split; [intros ->; now apply (FR s')|]. exists s, s'. rewrite !in_app_iff. cbn. intuition congruence.
      * split; [intros ->; now apply (FR s')|]. exists s', s. rewrite !in_app_iff. cbn. intuition congruence.
    + intros [NE [s1 [s2 [I1 [I2 H]]]]]. rewrite in_app_iff in I1, I2. destruct I1 as [I1|[I1|[]]]; destruct I2 as [I2|[I2|[]]].
      * left. split; [exact NE|]. exists s1, s2. tauto.
      * injection I2 as <- <-. right; right. split; [reflexivity|]. exists s1. tauto.
      * injection I1 as <- <-. right; left. split; [reflexivity|]. exists s2. split; [assumption|congruence].
      * injection I1 as <- <-. injection I2 as <- <-. now elim NE.
Qed.

Lemma NoDup_app_left (A : Type) (a b : list A) : NoDup (a ++ b) -> NoDup a.
Proof. induction a as [|x a IH]; intros H; [apply NoDup_nil|]. cbn in H. inversion_clear H as [|? ? N1 N2]. apply NoDup_cons; [intros I; apply N1; rewrite in_app_iff; now left|now apply IH]. Qed.
Lemma inv_all n todo : forall done st, inv n done st -> NoDup (map snd (done ++ todo)) ->
  (forall s f, In (s, f) (done ++ todo) -> f < n /\ Forall (fun g => g < n) (range s) /\ covers s f) ->
  inv n (done ++ todo) (fold_left (step n) todo st).
Proof.
  induction todo as [|[s f] todo IH]; intros done st H ND A; [now rewrite app_nil_r|].
  cbn [fold_left]. replace (done ++ (s, f) :: todo) with ((done ++ [(s, f)]) ++ todo) in * by now rewrite <- app_assoc.
  destruct (A s f) as [F [R C]]. { rewrite !in_app_iff. cbn. tauto. }
  apply IH; [|assumption|assumption]. apply inv_step; try assumption.
  - intros s' I. rewrite map_app, map_app in ND. apply NoDup_app_left in ND. cbn [map snd] in ND.
    apply NoDup_remove_2 in ND. apply ND. rewrite app_nil_r. change f with (snd (s', f)). now apply in_map.
  - intros s' f' I. apply (A s' f'). rewrite !in_app_iff. tauto.
Qed.

Lemma ops_snd specs : map snd (ops specs) = flat_map range specs.
Proof.
  unfold ops. induction specs as [|s r IH]; [reflexivity|]. cbn [flat_map]. rewrite map_app, IH. f_equal.
  rewrite map_map. cbn. apply map_id.
Qed.
Lemma in_ops specs s f : In (s, f) (ops specs) <-> In s specs /\ covers s f.
Proof.
  unfold ops. rewrite in_flat_map. split.
  - intros [s' [I H]]. apply in_map_iff in H. destruct H as [f' [E H]]. injection E as -> ->. now split.
  - intros [I H]. exists s. split; [exact I|]. apply in_map_iff. now exists f.
Qed.

Section Tables.
  Context (specs : list fcs) (W : divides specs).
  Notation n := (num_binary specs).
  Notation t := (initialize specs).

  Lemma tables_inv : exists m, inv n (ops specs) (t, m).
  Proof.
    unfold initialize. cbv zeta.
    rewrite init_ops. match goal with |- context [fold_left (step n) (ops specs) ?x] => set (st := x) end.
    assert (X : inv n ([] ++ ops specs) (fold_left (step n) (ops specs) st)).
    2:{ cbn [app] in X. destruct (fold_left (step n) (ops specs) st) as [t' m]. exists m. exact X. }
    apply inv_all.
    - constructor; cbn.
      + now rewrite !repeat_length.
      + intros s f [].
      + intros a b _ _. unfold get. rewrite nth_repeat0. split; [discriminate|]. intros [s [f [[] _]]].
      + intros g f. split; [intros []|]. intros [s [[] _]].
      + intros a b _ _. unfold get. rewrite nth_repeat0. split; [discriminate|]. intros [_ [s1 [s2 [[] _]]]].
    - cbn [app]. rewrite ops_snd. apply W.
    - intros s f I. cbn [app] in I. destruct W as (_ & _ & W3). rewrite Forall_forall in W3.
      apply in_ops in I. destruct I as [I C].
      assert (X : forall g, In g (range s) -> g < n) by (intros g G; apply W3; rewrite in_flat_map; now exists s).
      split; [now apply X|]. split; [now apply Forall_forall|exact C].
  Qed.
  Lemma tables_n : num_features t = n.
  Proof. destruct tables_inv as [m [[L _] _ _ _ _]]. exact L. Qed.

  (** Every binary feature below [n] belongs to exactly one specification. *)
  Lemma flat_len : List.length (flat_map range specs) = n.
  Proof. unfold num_binary. clear W. induction specs as [|s r IH]; [reflexivity|]. cbn [flat_map fold_right]. now rewrite app_length, IH. Qed.
  Lemma covered f : f < n -> exists s, In s specs /\ covers s f.
  Proof.
    intros F. destruct W as (_ & W2 & W3).
    assert (I : incl (seq 0 n) (flat_map range specs)).
    { apply NoDup_length_incl; [exact W2|rewrite seq_length, flat_len; lia|]. intros g G. rewrite Forall_forall in W3. apply in_seq. specialize (W3 g G). lia. }
    specialize (I f). rewrite in_flat_map in I. apply I. apply in_seq. lia.
  Qed.
  Lemma covers_iff s f : covers s f <-> fc_lo s <= f <= fc_hi s.
  Proof. unfold covers, range. rewrite in_seq. lia. Qed.
  Lemma attr_from_spec i l f a : attr_from i l f = Some a -> i <= a < i + List.length l /\ covers (nth (a - i) l (FCS 0 0 "" 0 0)) f.
  Proof.
    revert i; induction l as [|s l IH]; intros i H; [discriminate|]. cbn [attr_from] in H.
    destruct ((fc_lo s <=? f) && (f <=? fc_hi s)) eqn:E.
    - injection H as <-. cbn [List.length]. rewrite Nat.sub_diag. cbn [nth]. split; [lia|]. apply covers_iff. apply andb_true_iff in E. rewrite !Nat.leb_le in E. lia.
    - apply IH in H. destruct H as [H1 H2]. cbn [List.length]. split; [lia|]. replace (a - i) with (S (a - S i)) by lia. exact H2.
  Qed.
  Lemma attr_from_total i l f : (exists s, In s l /\ covers s f) -> exists a, attr_from i l f = Some a.
  Proof.
    revert i; induction l as [|s l IH]; intros i [s' [I C]]; [destruct I|]. cbn [attr_from].
    destruct ((fc_lo s <=? f) && (f <=? fc_hi s)) eqn:E; [now exists i|]. apply IH. destruct I as [->|I]; [|now exists s'].
    exfalso. apply covers_iff in C. apply andb_false_iff in E. rewrite !Nat.leb_gt in E. lia.
  Qed.
  Lemma attr_some f : f < n -> exists a, attr specs f = Some a /\ a < List.length specs /\ In (spec_of specs a) specs /\ covers (spec_of specs a) f.
  Proof.
    intros F. destruct (attr_from_total 0 specs f (covered f F)) as [a H]. exists a.
    destruct (attr_from_spec _ _ _ _ H) as [H1 H2]. rewrite Nat.sub_0_r in H2. cbn in H1.
    split; [exact H|]. split; [lia|]. split; [|exact H2]. apply nth_In. lia.
  Qed.
  Lemma NoDup_concat_unique (l : list fcs) f : NoDup (flat_map range l) -> forall i j, i < List.length l -> j < List.length l ->
    covers (nth i l (FCS 0 0 "" 0 0)) f -> covers (nth j l (FCS 0 0 "" 0 0)) f -> i = j.
  Proof.
    induction l as [|s l IH]; intros ND i j I J CI CJ; [cbn in I; lia|]. cbn [flat_map] in ND.
    assert (NI : forall x, In x (range s) -> ~ In x (flat_map range l)).
    { clear - ND. induction (range s) as [|y r IH]; intros x H; [destruct H|]. cbn in ND. inversion_clear ND as [|? ? N1 N2]. destruct H as [->|H]; [intros Q; apply N1; rewrite in_app_iff; now right|now apply IH]. }
    assert (Q : forall k, k < List.length l -> covers (nth k l (FCS 0 0 "" 0 0)) f -> In f (flat_map range l)).
    { intros k K C. rewrite in_flat_map. exists (nth k l (FCS 0 0 "" 0 0)). split; [now apply nth_In|exact C]. }
    destruct i as [|i]; destruct j as [|j]; cbn [nth List.length] in *.
    - reflexivity.
    - elim (NI f CI). apply (Q j); [lia|exact CJ].
    - elim (NI f CJ). apply (Q i); [lia|exact CI].
    - f_equal. apply IH; try assumption; try lia. clear - ND. induction (range s) as [|y r IH]; [exact ND|]. inversion_clear ND. now apply IH.
  Qed.
  Lemma attr_unique f a : a < List.length specs -> covers (spec_of specs a) f -> f < n -> attr specs f = Some a.
  Proof.
    intros A C F. destruct (attr_some f F) as [b [H1 [H2 [_ H3]]]]. rewrite H1. f_equal.
    destruct W as (_ & W2 & _). exact (NoDup_concat_unique specs f W2 b a H2 A H3 C).
  Qed.

  (** The two tables say what they should. *)
  Theorem C36_tables f g : f < n -> g < n ->
    (same_bin t f g = true <-> attr specs f = attr specs g) /\
    (same_group t f g = true <-> f <> g /\ exists a b, attr specs f = Some a /\ attr specs g = Some b /\ fc_group (spec_of specs a) = fc_group (spec_of specs b)) /\
    (exists a, attr specs f = Some a /\ nth f (tb_cost t) 0%Z = fc_cost (spec_of specs a) /\ nth f (tb_disc t) 0%Z = fc_disc (spec_of specs a)).
  Proof.
    intros F G. destruct tables_inv as [m [_ HC HB _ HG]]. cbn [fst] in *.
    unfold same_bin, same_group. rewrite tables_n. change (nth (f * n + g) (tb_bin t) false) with (get n (tb_bin t) f g).
    change (nth (f * n + g) (tb_group t) false) with (get n (tb_group t) f g).
    destruct (attr_some f F) as [a [A1 [A2 [A3 A4]]]]. destruct (attr_some g G) as [b [B1 [B2 [B3 B4]]]].
    split; [|split].
    - rewrite HB by assumption. rewrite A1, B1. split.
      + intros [s [h [I [C1 [C2 _]]]]]. apply in_ops in I. destruct I as [I _].
        destruct (In_nth specs s (FCS 0 0 "" 0 0) I) as [k [K1 K2]].
        change (nth k specs (FCS 0 0 "" 0 0)) with (spec_of specs k) in K2. rewrite <- K2 in C1, C2.
        rewrite <- A1, <- B1. rewrite (attr_unique f k), (attr_unique g k) by assumption. reflexivity.
      + intros E. injection E as ->. exists (spec_of specs b), f. split; [apply in_ops; now split|]. split; [exact A4|]. split; [exact B4|now left].
    - rewrite HG by assumption. split.
      + intros [NE [s1 [s2 [I1 [I2 H]]]]]. split; [exact NE|].
        apply in_ops in I1. destruct I1 as [I1 C1]. apply in_ops in I2. destruct I2 as [I2 C2].
        destruct (In_nth specs s1 (FCS 0 0 "" 0 0) I1) as [k [K1 K2]]. destruct (In_nth specs s2 (FCS 0 0 "" 0 0) I2) as [l [M1 M2]].
        exists k, l. change (spec_of specs k = s1) in K2. change (spec_of specs l = s2) in M2. rewrite <- K2 in C1. rewrite <- M2 in C2.
        rewrite (attr_unique f k), (attr_unique g l) by assumption. split; [reflexivity|]. split; [reflexivity|]. congruence.
      + intros [NE [x [y [X [Y H]]]]]. split; [exact NE|]. rewrite A1 in X. rewrite B1 in Y. injection X as <-. injection Y as <-.
        exists (spec_of specs a), (spec_of specs b). split; [apply in_ops; now split|]. split; [apply in_ops; now split|exact H].
    - exists a. split; [exact A1|]. apply (HC (spec_of specs a) f). apply in_ops. now split.
  Qed.

  (** ** The charge of one test *)
  Definition bought_by (b : branch) : list nat := flat_map (fun c => match attr specs (c / 2) with Some a => [a] | None => [] end) b.
  Definition branch_ok (b : branch) : Prop := Forall (fun c => c / 2 < n) b.

  Lemma in_bought b a : branch_ok b -> (In a (bought_by b) <-> exists c, In c b /\ attr specs (c / 2) = Some a).
  Proof.
    intros _. unfold bought_by. rewrite in_flat_map. split.
    - intros [c [I H]]. exists c. split; [exact I|]. destruct (attr specs (c / 2)); [destruct H as [->|[]]; reflexivity|destruct H].
    - intros [c [I H]]. exists c. split; [exact I|]. rewrite H. now left.
  Qed.
  Lemma price_ext bought bought' a : (forall x, In x bought <-> In x bought') -> price specs bought a = price specs bought' a.
  Proof.
    intros E. unfold price.
    assert (X : forall p : nat -> bool, existsb p bought = existsb p bought').
    { intros p. apply eq_true_iff_eq. rewrite !existsb_exists. split; intros [x [I H]]; exists x; (split; [now apply E|exact H]). }
    now rewrite !X.
  Qed.
  Theorem C36_charge b f : branch_ok b -> f < n -> exists a, attr specs f = Some a /\ charge t b f = price specs (bought_by b) a.
  Proof.
    intros B F. destruct (C36_tables f f F F) as (_ & _ & a & A & C1 & C2). exists a. split; [exact A|].
    unfold charge, price. unfold branch_ok in B. rewrite Forall_forall in B.
    assert (E1 : existsb (fun c => same_bin t (c / 2) f) b = existsb (Nat.eqb a) (bought_by b)).
    { apply eq_true_iff_eq. rewrite !existsb_exists. split.
      - intros [c [I H]]. apply (C36_tables _ _ (B c I) F) in H. exists a. split; [|apply Nat.eqb_refl].
        apply in_bought; [now apply Forall_forall|]. exists c. split; [exact I|congruence].
      - intros [x [I H]]. apply Nat.eqb_eq in H. subst x. apply in_bought in I; [|now apply Forall_forall]. destruct I as [c [I H]].
        exists c. split; [exact I|]. apply (C36_tables _ _ (B c I) F). congruence. }
    rewrite E1. destruct (existsb (Nat.eqb a) (bought_by b)) eqn:E2; [reflexivity|].
    assert (E3 : existsb (fun c => same_group t (c / 2) f) b = existsb (fun x => String.eqb (fc_group (spec_of specs x)) (fc_group (spec_of specs a))) (bought_by b)).
    { apply eq_true_iff_eq. rewrite !existsb_exists. split.
      - intros [c [I H]]. apply (C36_tables _ _ (B c I) F) in H. destruct H as [_ [x [y [H1 [H2 H3]]]]]. exists x. split.
        + apply in_bought; [now apply Forall_forall|]. now exists c.
        + apply String.eqb_eq. congruence.
      - intros [x [I H]]. apply String.eqb_eq in H. assert (I' := I). apply in_bought in I; [|now apply Forall_forall]. destruct I as [c [I J]].
        exists c. split; [exact I|]. apply (C36_tables _ _ (B c I) F). split.
        + intros Q. rewrite Q in J. assert (x = a) by congruence. subst x.
          assert (X : existsb (Nat.eqb a) (bought_by b) = true) by (apply existsb_exists; exists a; split; [exact I'|apply Nat.eqb_refl]). congruence.
        + exists x, a. now rewrite J, A. }
    rewrite E3, C1, C2. reflexivity.
  Qed.

  (** ** Paths *)
  (** A path: the features tested, with the outcomes; its charges as the search adds them. *)
  Fixpoint path_charges (b : branch) (path : list (nat * bool)) : Z :=
    match path with
    | [] => 0%Z
    | (f, p) :: r => (charge t b f + path_charges (br_add b f p) r)%Z
    end.
  Lemma code_half f p : br_code f p / 2 = f.
  Proof. unfold br_code. rewrite Nat.mul_comm, Nat.div_add_l by lia. destruct p; cbn; lia. Qed.
  Lemma in_br_add b f p c : In c (br_add b f p) <-> In c b \/ c = br_code f p.
  Proof.
    unfold br_add. split.
    - intros I. apply (Permutation_in _ (sort_nat_perm _)) in I. rewrite in_app_iff in I. cbn [In] in I. intuition congruence.
    - intros I. apply (Permutation_in _ (Permutation_sym (sort_nat_perm _))). rewrite in_app_iff. cbn [In]. intuition congruence.
  Qed.
  Lemma br_add_ok b f p : branch_ok b -> f < n -> branch_ok (br_add b f p).
  Proof.
    unfold branch_ok. rewrite !Forall_forall. intros B F c I. apply in_br_add in I. destruct I as [I| ->]; [now apply B|now rewrite code_half].
  Qed.
  Lemma bought_add b f p a : branch_ok b -> f < n -> attr specs f = Some a -> forall x, In x (bought_by (br_add b f p)) <-> In x (a :: bought_by b).
  Proof.
    intros B F A x. rewrite in_bought by now apply br_add_ok. cbn [In]. rewrite in_bought by assumption. split.
    - intros [c [I H]]. apply in_br_add in I. destruct I as [I| ->]; [right; now exists c|]. rewrite code_half in H. left. congruence.
    - intros [<-|[c [I H]]]; [exists (br_code f p); rewrite in_br_add, code_half; tauto|exists c; rewrite in_br_add; tauto].
  Qed.
  Lemma bill_ext path : forall bought bought', (forall x, In x bought <-> In x bought') -> bill specs bought path = bill specs bought' path.
  Proof.
    induction path as [|f p IH]; intros bought bought' E; [reflexivity|]. cbn [bill].
    destruct (attr specs f) as [a|]; [|now apply IH]. rewrite (price_ext bought bought') by assumption. f_equal.
    apply IH. intros x. cbn. now rewrite E.
  Qed.
  Lemma path_bill path : forall b, branch_ok b -> Forall (fun q => fst q < n) path ->
    path_charges b path = bill specs (bought_by b) (map fst path).
  Proof.
    induction path as [|[f p] r IH]; intros b B A; [reflexivity|]. inversion_clear A as [|? ? F A']. cbn [fst] in F.
    cbn [path_charges map fst bill]. destruct (C36_charge b f B F) as [a [H1 H2]]. rewrite H1, H2. f_equal.
    rewrite IH by (assumption || now apply br_add_ok). apply bill_ext. now apply bought_add.
  Qed.
  (** C36: along every path the search charges exactly the bill. *)
  Theorem C36_path_charges path : Forall (fun q => fst q < n) path -> path_charges [] path = bill specs [] (map fst path).
  Proof. intros A. apply path_bill; [apply Forall_nil|exact A]. Qed.

  (** ** Trees *)
  Definition instance_cost (M : list (list Z)) (T : tree) (k : nat) (x : inst) : Z :=
    (bill specs [] (tests T x) + (if (predict T x =? k)%nat then 0 else mis M k (predict T x)))%Z.

  Lemma leaf_vsum_from M l v k : leaf_costs_from M l k v = vsum_from (fun j _ => if (l =? j)%nat then 0%Z else mis M j l) k v.
  Proof.
    revert k; induction v as [|xs v IH]; intros k; [reflexivity|]. cbn [leaf_costs_from vsum_from]. rewrite IH. f_equal.
    rewrite (Nat.eqb_sym k l). destruct (l =? k).
    - induction xs as [|x xs IHx]; [reflexivity|]. cbn [map zsum]. rewrite <- IHx. lia.
    - induction xs as [|x xs IHx]; [reflexivity|]. cbn [map zsum List.length]. rewrite <- IHx. lia.
  Qed.
  Lemma vsum_plus_const c z v : vsum (fun j x => (z + c j x)%Z) v = (Z.of_nat (vsize v) * z + vsum c v)%Z.
  Proof.
    unfold vsum. assert (Q : forall k, vsum_from (fun j x => (z + c j x)%Z) k v = (Z.of_nat (vsize v) * z + vsum_from c k v)%Z).
    { induction v as [|xs v IH]; intros k; [reflexivity|]. cbn [vsum_from]. rewrite IH. unfold vsize. cbn [List.concat]. rewrite app_length, Nat2Z.inj_add.
      assert (X : forall l, zsum (map (fun x => (z + c k x)%Z) l) = (Z.of_nat (List.length l) * z + zsum (map (c k) l))%Z).
      { induction l as [|y l IHl]; [reflexivity|]. cbn [map zsum List.length]. rewrite IHl. lia. }
      rewrite X. lia. }
    apply Q.
  Qed.

  Lemma search_cost_vsum M T : forall v b, branch_ok b -> fits (fun f => f < n) (List.length M) T ->
    search_cost M t v b T = vsum (fun k x => (bill specs (bought_by b) (tests T x) + (if (predict T x =? k)%nat then 0 else mis M k (predict T x)))%Z) v.
  Proof.
    induction T as [l|f l IHl r IHr]; intros v b B Fi.
    - cbn [search_cost tests predict]. unfold leaf_costs. rewrite leaf_vsum_from. apply vsum_ext. reflexivity.
    - destruct Fi as (F & Fl & Fr). cbn [search_cost]. destruct (C36_charge b f B F) as [a [H1 H2]].
      rewrite IHl, IHr by (assumption || now apply br_add_ok). rewrite H2.
      rewrite (vsum_split _ f v).
      assert (X : forall side v', (forall x, In x (List.concat v') -> has f x = side) ->
        vsum (fun k x => (bill specs (bought_by b) (tests (Split f l r) x) + (if (predict (Split f l r) x =? k)%nat then 0 else mis M k (predict (Split f l r) x)))%Z) v'
        = (Z.of_nat (vsize v') * price specs (bought_by b) a + vsum (fun k x => (bill specs (bought_by (br_add b f side)) (tests (if side then r else l) x) + (if (predict (if side then r else l) x =? k)%nat then 0 else mis M k (predict (if side then r else l) x)))%Z) v')%Z).
      { intros side v' HS. rewrite <- vsum_plus_const. apply vsum_ext. intros k x I. specialize (HS x I).
        cbn [tests predict bill]. rewrite HS, H1. rewrite (bill_ext _ (bought_by (br_add b f side)) (a :: bought_by b)) by now apply bought_add.
        destruct side; lia. }
      rewrite (X false (split_left f v)) by (intros x I; rewrite concat_split_left in I; apply filter_In in I; destruct I as [_ I]; now apply negb_true_iff in I).
      rewrite (X true (split_right f v)) by (intros x I; rewrite concat_split_right in I; apply filter_In in I; now destruct I).
      cbv iota. unfold br_left, br_right. rewrite (vsize_split f v), Nat2Z.inj_add. lia.
  Qed.
  (** C36: the costs the search computes for a tree: for every instance the bill of the tests
      on its path and the cost of its prediction (none when it is right). *)
  Theorem C36_tree_cost M T v : fits (fun f => f < n) (List.length M) T ->
    search_cost M t v [] T = vsum (instance_cost M T) v.
  Proof. intros H. rewrite search_cost_vsum by (assumption || apply Forall_nil). apply vsum_ext. reflexivity. Qed.

  (** ** The depth-two solver *)
  Definition zero_diagonal (M : list (list Z)) : Prop := forall k, mis M k k = 0%Z.
  Lemma d2_from M l v : zero_diagonal M -> forall k, d2_costs_from M l k v = leaf_costs_from M l k v.
  Proof.
    intros Z0. induction v as [|xs v IH]; intros k; [reflexivity|]. cbn [d2_costs_from leaf_costs_from]. rewrite IH. f_equal.
    destruct (Nat.eqb_spec k l) as [->|_].
    - induction xs as [|x xs IHx]; [reflexivity|]. cbn [fold_right]. rewrite IHx, Z0. reflexivity.
    - induction xs as [|x xs IHx]; [reflexivity|]. cbn [fold_right List.length]. rewrite IHx. lia.
  Qed.
  Theorem C36_leaf_costs M v l : zero_diagonal M -> d2_costs M v l = leaf_costs M v l.
  Proof. intros H. now apply d2_from. Qed.

  Lemma charge_side b f p g : charge t (br_add b f p) g = charge t (br_left b f) g.
  Proof.
    unfold charge, br_left.
    assert (X : forall q : nat -> bool, existsb (fun c => q (c / 2)) (br_add b f p) = existsb (fun c => q (c / 2)) (br_add b f false)).
    { intros q. apply eq_true_iff_eq. rewrite !existsb_exists. split; intros [c [I H]]; apply in_br_add in I; destruct I as [I| ->].
      - exists c. rewrite in_br_add. tauto.
      - exists (br_code f false). rewrite in_br_add. rewrite code_half in *. tauto.
      - exists c. rewrite in_br_add. tauto.
      - exists (br_code f p). rewrite in_br_add. rewrite code_half in *. tauto. }
    now rewrite (X (fun c => same_bin t c g)), (X (fun c => same_group t c g)).
  Qed.
  Lemma d2_child_eq M b f p v T : zero_diagonal M -> depth T <= 1 -> (forall g l r, T = Split g l r -> g <> f) ->
    d2_child M t b f v T = search_cost M t v (br_add b f p) T.
  Proof.
    intros Z0 D NE. destruct T as [l|g l r]; cbn [d2_child search_cost]; [now apply C36_leaf_costs|].
    destruct l; [|cbn [depth] in D; lia]. destruct r; [|cbn [depth] in D; lia]. cbn [search_cost].
    rewrite !C36_leaf_costs by assumption. unfold d2_branching.
    destruct (Nat.eqb_spec f g) as [->|_]; [now elim (NE g _ _ eq_refl)|]. rewrite charge_side. lia.
  Qed.
  (** C36: a tree of depth at most two costs the same in the depth-two solver, for every branch
      it is built below, when right predictions are free. *)
  Theorem C36_depth_two M b v T : zero_diagonal M -> depth T <= 2 ->
    (forall f l r, T = Split f l r -> forall g l' r', l = Split g l' r' \/ r = Split g l' r' -> g <> f) ->
    d2_tree_cost M t v b T = search_cost M t v b T.
  Proof.
    intros Z0 D NE. destruct T as [l|f l r]; cbn [d2_tree_cost search_cost]; [now apply C36_leaf_costs|].
    cbn [depth] in D.
    rewrite (d2_child_eq M b f false) by (assumption || lia || (intros g l' r' E; apply (NE f l r eq_refl g l' r'); now left)).
    rewrite (d2_child_eq M b f true) by (assumption || lia || (intros g l' r' E; apply (NE f l r eq_refl g l' r'); now right)).
    unfold d2_branching. rewrite Nat.eqb_refl. unfold br_left, br_right. lia.
  Qed.

  (** ** The total test costs *)
  Definition nonneg : Prop := Forall (fun s => (0 <= fc_disc s)%Z /\ (fc_disc s <= fc_cost s)%Z) specs.
  (** Within a group every feature has the same discount. *)
  Definition uniform : Prop := forall a b, a < List.length specs -> b < List.length specs -> fc_group (spec_of specs a) = fc_group (spec_of specs b) ->
    (fc_cost (spec_of specs a) - fc_disc (spec_of specs a) = fc_cost (spec_of specs b) - fc_disc (spec_of specs b))%Z.

  Lemma done_step_nth rel f : forall d g, List.length d = n -> g < n -> nth g (done_step t rel f d) false = nth g d false || ((f <? g) && rel t f g).
  Proof.
    intros d g L G. unfold done_step. rewrite tables_n.
    assert (Q : forall k j d, j + k <= n -> List.length d = n ->
      List.length (fold_left (fun d g => if rel t f g then set_nth g true d else d) (seq j k) d) = n /\
      nth g (fold_left (fun d g => if rel t f g then set_nth g true d else d) (seq j k) d) false = nth g d false || ((j <=? g) && (g <? j + k) && rel t f g)).
    { clear d L. induction k as [|k IH]; intros j d J L.
      - cbn [seq fold_left]. split; [exact L|]. replace (j + 0) with j by lia. destruct (Nat.leb_spec j g); destruct (Nat.ltb_spec g j); try lia; cbn [andb]; now rewrite orb_false_r.
      - cbn [seq fold_left]. destruct (rel t f j) eqn:R.
        + destruct (IH (S j) (set_nth j true d)) as [H1 H2]; [lia|now rewrite set_nth_len|]. split; [exact H1|]. rewrite H2, set_nth_nth by lia.
          destruct (Nat.eqb_spec g j) as [->|NE].
          * rewrite R. cbn [orb]. destruct (Nat.leb_spec j j); [|lia]. destruct (Nat.ltb_spec j (j + S k)); [|lia]. cbn [andb]. now rewrite orb_true_r.
          * replace (S j + k) with (j + S k) by lia. destruct (Nat.leb_spec (S j) g); destruct (Nat.leb_spec j g); try lia; reflexivity.
        + destruct (IH (S j) d) as [H1 H2]; [lia|exact L|]. split; [exact H1|]. rewrite H2. replace (S j + k) with (j + S k) by lia.
          destruct (Nat.eqb_spec g j) as [->|NE]; [rewrite R, !andb_false_r; reflexivity|].
          destruct (Nat.leb_spec (S j) g); destruct (Nat.leb_spec j g); try lia; reflexivity. }
    destruct (Nat.leb_spec n f) as [H|H].
    - replace (n - S f) with 0 by lia. cbn [seq fold_left]. destruct (Nat.ltb_spec f g); [lia|]. cbn [andb]. now rewrite orb_false_r.
    - destruct (Q (n - S f) (S f) d) as [_ ->]; [lia|exact L|]. replace (S f + (n - S f)) with n by lia.
      destruct (Nat.ltb_spec g n); [|lia]. rewrite andb_true_r. reflexivity.
  Qed.
  Lemma done_step_len rel f d : List.length (done_step t rel f d) = List.length d.
  Proof. unfold done_step. generalize (seq (S f) (num_features t - S f)). intros l. revert d. induction l as [|g l IH]; intros d; cbn; [reflexivity|]. rewrite IH. destruct (rel t f g); [apply set_nth_len|reflexivity]. Qed.

  (** The total of all test costs is the bill for testing all features in their order. *)
  Theorem C36_total_test_costs : total_test_costs t = bill specs [] (seq 0 n).
  Proof.
    unfold total_test_costs. rewrite tables_n.
    (* [bought]: the original features of the features before [f] *)
    assert (Q : forall k f bd gd bought, f + k = n -> List.length bd = n -> List.length gd = n ->
      (forall a, In a bought <-> exists h, h < f /\ attr specs h = Some a) ->
      (forall g, f <= g < n -> (nth g bd false = true <-> exists h, h < f /\ attr specs h = attr specs g)) ->
      (forall g, f <= g < n -> (nth g gd false = true <-> exists h, h < f /\ same_group t h g = true)) ->
      total_from t k f bd gd = bill specs bought (seq f k)).
    { induction k as [|k IH]; intros f bd gd bought K LB LG HB Hb Hg; [reflexivity|].
      cbn [total_from seq bill]. assert (F : f < n) by lia.
      destruct (C36_tables f f F F) as (_ & _ & a & A & C1 & C2). rewrite A.
      assert (HB' : forall x, In x (a :: bought) <-> exists h, h < S f /\ attr specs h = Some x).
      { intros x. cbn [In]. rewrite HB. split.
        - intros [<-|[h [H1 H2]]]; [exists f; split; [lia|exact A]|exists h; split; [lia|exact H2]].
        - intros [h [H1 H2]]. destruct (Nat.eq_dec h f) as [->|]; [left; congruence|right; exists h; split; [lia|exact H2]]. }
      assert (PB : existsb (Nat.eqb a) bought = nth f bd false).
      { apply eq_true_iff_eq. rewrite existsb_exists, Hb by lia. split.
        - intros [x [I E]]. apply Nat.eqb_eq in E. subst x. apply HB in I. destruct I as [h [H1 H2]]. exists h. split; [exact H1|congruence].
        - intros [h [H1 H2]]. exists a. split; [|apply Nat.eqb_refl]. apply HB. exists h. split; [exact H1|congruence]. }
      unfold price. rewrite PB. destruct (nth f bd false) eqn:BD.
      - rewrite Z.add_0_l. apply IH; try assumption; try lia.
        + (* the feature was bought before: nothing changes *)
          intros g G. rewrite Hb by lia. split.
          * intros [h [H1 H2]]. exists h. split; [lia|exact H2].
          * intros [h [H1 H2]]. destruct (Nat.eq_dec h f) as [->|]; [|exists h; split; [lia|exact H2]].
            apply Hb in BD; [|lia]. destruct BD as [h' [X1 X2]]. exists h'. split; [exact X1|congruence].
        + intros g G. rewrite Hg by lia. split.
          * intros [h [H1 H2]]. exists h. split; [lia|exact H2].
          * intros [h [H1 H2]]. destruct (Nat.eq_dec h f) as [->|]; [|exists h; split; [lia|exact H2]].
            apply Hb in BD; [|lia]. destruct BD as [h' [X1 X2]]. exists h'. split; [exact X1|].
            apply (C36_tables f g F ltac:(lia)) in H2. destruct H2 as [_ [x [y [Y1 [Y2 Y3]]]]].
            apply (C36_tables h' g ltac:(lia) ltac:(lia)). split; [lia|]. exists x, y. split; [congruence|]. now split.
      - assert (PG : existsb (fun b => String.eqb (fc_group (spec_of specs b)) (fc_group (spec_of specs a))) bought = nth f gd false).
        { apply eq_true_iff_eq. rewrite existsb_exists, Hg by lia. split.
          - intros [x [I E]]. apply String.eqb_eq in E. apply HB in I. destruct I as [h [H1 H2]]. exists h. split; [exact H1|].
            apply (C36_tables h f ltac:(lia) F). split; [lia|]. exists x, a. now rewrite H2, A.
          - intros [h [H1 H2]]. apply (C36_tables h f ltac:(lia) F) in H2. destruct H2 as [_ [x [y [Y1 [Y2 Y3]]]]]. exists x. split.
            + apply HB. now exists h.
            + apply String.eqb_eq. congruence. }
        rewrite PG, C1, C2. f_equal. apply IH; try (now rewrite done_step_len); try lia; [exact HB'| |].
        + intros g G. rewrite done_step_nth by (assumption || lia). rewrite orb_true_iff, Hb by lia.
          destruct (Nat.ltb_spec f g); [|lia]. cbn [andb]. rewrite (proj1 (C36_tables f g F ltac:(lia))). split.
          * intros [[h [H1 H2]]|H1]; [exists h; split; [lia|exact H2]|exists f; split; [lia|exact H1]].
          * intros [h [H1 H2]]. destruct (Nat.eq_dec h f) as [->|]; [now right|left; exists h; split; [lia|exact H2]].
        + intros g G. rewrite done_step_nth by (assumption || lia). rewrite orb_true_iff, Hg by lia.
          destruct (Nat.ltb_spec f g); [|lia]. cbn [andb]. split.
          * intros [[h [H1 H2]]|H1]; [exists h; split; [lia|exact H2]|exists f; split; [lia|exact H1]].
          * intros [h [H1 H2]]. destruct (Nat.eq_dec h f) as [->|]; [now right|left; exists h; split; [lia|exact H2]]. }
    apply Q; try (now rewrite repeat_length); [lia| | |].
    - intros a. split; [intros []|]. intros [h [H _]]. lia.
    - intros g _. rewrite nth_repeat0. split; [discriminate|]. intros [h [H _]]. lia.
    - intros g _. rewrite nth_repeat0. split; [discriminate|]. intros [h [H _]]. lia.
  Qed.

  Lemma attr_len f a : attr specs f = Some a -> a < List.length specs.
  Proof. intros H. apply attr_from_spec in H. lia. Qed.
  Lemma price_nonneg bought a : nonneg -> a < List.length specs -> (0 <= price specs bought a)%Z.
  Proof.
    intros N A. unfold nonneg in N. rewrite Forall_forall in N. specialize (N (spec_of specs a) (nth_In _ _ A)).
    unfold price. destruct (existsb _ bought); [lia|]. destruct (existsb _ bought); lia.
  Qed.
  Lemma bill_app p q bought : bill specs bought (p ++ q) = (bill specs bought p + bill specs (rev (flat_map (fun f => match attr specs f with Some a => [a] | None => [] end) p) ++ bought) q)%Z.
  Proof.
    revert bought; induction p as [|f p IH]; intros bought; [reflexivity|]. cbn [app bill flat_map].
    destruct (attr specs f) as [a|].
    - rewrite IH. cbn [app rev]. rewrite <- app_assoc. cbn [app]. lia.
    - rewrite IH. reflexivity.
  Qed.
  Lemma bill_nonneg p bought : nonneg -> (0 <= bill specs bought p)%Z.
  Proof.
    intros N. revert bought; induction p as [|f p IH]; intros bought; cbn [bill]; [lia|].
    destruct (attr specs f) as [a|] eqn:A; [|apply IH]. specialize (IH (a :: bought)). pose proof (price_nonneg bought a N (attr_len f a A)). lia.
  Qed.
  Lemma price_swap bought a b : uniform -> a < List.length specs -> b < List.length specs ->
    (price specs bought a + price specs (a :: bought) b = price specs bought b + price specs (b :: bought) a)%Z.
  Proof.
    intros U A B. unfold price. cbn [existsb]. rewrite (Nat.eqb_sym b a), (String.eqb_sym (fc_group (spec_of specs b))).
    destruct (Nat.eqb_spec a b) as [->|NE]; [destruct (existsb (Nat.eqb b) bought); reflexivity|]. cbn [orb].
    destruct (String.eqb_spec (fc_group (spec_of specs a)) (fc_group (spec_of specs b))) as [E|NE2]; cbn [orb].
    - rewrite E. specialize (U a b A B E).
      destruct (existsb (Nat.eqb a) bought) eqn:X1; destruct (existsb (Nat.eqb b) bought) eqn:X2; try lia.
      + assert (Y : existsb (fun b0 : nat => (fc_group (spec_of specs b0) =? fc_group (spec_of specs b))%string) bought = true).
        { apply existsb_exists in X1. destruct X1 as [x [I Q]]. apply Nat.eqb_eq in Q. subst x. apply existsb_exists. exists a. split; [exact I|]. now apply String.eqb_eq. }
        rewrite Y. lia.
      + assert (Y : existsb (fun b0 : nat => (fc_group (spec_of specs b0) =? fc_group (spec_of specs b))%string) bought = true).
        { apply existsb_exists in X2. destruct X2 as [x [I Q]]. apply Nat.eqb_eq in Q. subst x. apply existsb_exists. exists b. split; [exact I|]. now apply String.eqb_eq. }
        rewrite Y. lia.
      + destruct (existsb (fun b0 => (fc_group (spec_of specs b0) =? fc_group (spec_of specs b))%string) bought); lia.
    - destruct (existsb (Nat.eqb a) bought); destruct (existsb (Nat.eqb b) bought); try lia;
        destruct (existsb (fun b0 => (fc_group (spec_of specs b0) =? fc_group (spec_of specs a))%string) bought); destruct (existsb (fun b0 => (fc_group (spec_of specs b0) =? fc_group (spec_of specs b))%string) bought); lia.
  Qed.
  Lemma bill_perm p q : uniform -> Permutation p q -> forall bought, bill specs bought p = bill specs bought q.
  Proof.
    intros U P. induction P as [|f p q P IH|f g p|p q r P1 IH1 P2 IH2]; intros bought.
    - reflexivity.
    - cbn [bill]. destruct (attr specs f); now rewrite IH.
    - cbn [bill]. destruct (attr specs f) as [a|] eqn:A; destruct (attr specs g) as [b|] eqn:B; try reflexivity.
      pose proof (price_swap bought a b U (attr_len f a A) (attr_len g b B)).
      rewrite (bill_ext p (a :: b :: bought) (b :: a :: bought)) by (intros x; cbn; tauto). lia.
    - now rewrite IH1.
  Qed.
  Lemma bill_free p bought : (forall f a, In f p -> attr specs f = Some a -> In a bought) -> bill specs bought p = 0%Z.
  Proof.
    revert bought; induction p as [|f p IH]; intros bought H; [reflexivity|]. cbn [bill].
    destruct (attr specs f) as [a|] eqn:A; [|apply IH; intros g b I; apply H; now right].
    rewrite IH by (intros g b I J; right; apply (H g b); [now right|exact J]).
    unfold price. assert (X : existsb (Nat.eqb a) bought = true) by (apply existsb_exists; exists a; split; [apply (H f); [now left|exact A]|apply Nat.eqb_refl]).
    now rewrite X.
  Qed.
  (** C36: no path costs more than the total, when the discount is the same within a group. *)
  Theorem C36_total_is_bound path : nonneg -> uniform -> Forall (fun f => f < n) path -> (bill specs [] path <= total_test_costs t)%Z.
  Proof.
    intros N U F. rewrite C36_total_test_costs.
    assert (E : bill specs [] (path ++ seq 0 n) = bill specs [] (seq 0 n ++ path)) by (apply bill_perm; [exact U|apply Permutation_app_comm]).
    rewrite !bill_app in E. rewrite (bill_free path (rev (flat_map (fun f => match attr specs f with Some a => [a] | None => [] end) (seq 0 n)) ++ [])) in E.
    - pose proof (bill_nonneg (seq 0 n) (rev (flat_map (fun f => match attr specs f with Some a => [a] | None => [] end) path) ++ []) N). lia.
    - intros f a I A. rewrite app_nil_r, <- in_rev, in_flat_map. exists f. rewrite Forall_forall in F. split; [apply in_seq; specialize (F f I); lia|]. rewrite A. now left.
  Qed.
  Theorem C36_worst_instance low M T k x : nonneg -> uniform -> fits (fun f => f < n) (List.length M) T -> (0 <= max_mis low M)%Z ->
    k < List.length M -> Forall (fun row => List.length row = List.length M) M ->
    (instance_cost M T k x <= max_instance_costs low M t)%Z.
  Proof.
    intros N U Fi P K Sq. unfold instance_cost, max_instance_costs.
    assert (H1 : (bill specs [] (tests T x) <= total_test_costs t)%Z).
    { apply C36_total_is_bound; try assumption. clear - Fi. induction T as [l|f l IHl r IHr]; [apply Forall_nil|].
      destruct Fi as (F & Fl & Fr). cbn [tests]. apply Forall_cons; [exact F|]. destruct (has f x); [now apply IHr|now apply IHl]. }
    assert (H2 : predict T x < List.length M) by (clear - Fi; induction T as [l|f l IHl r IHr]; [exact Fi|]; destruct Fi as (F & Fl & Fr); cbn [predict]; destruct (has f x); [now apply IHr|now apply IHl]).
    assert (H3 : (mis M k (predict T x) <= max_mis low M)%Z).
    { unfold max_mis. assert (I : In (mis M k (predict T x)) (List.concat M)).
      { apply in_concat. exists (nth k M []). rewrite Forall_forall in Sq. assert (IK : In (nth k M []) M) by now apply nth_In. split; [exact IK|].
        apply nth_In. now rewrite (Sq _ IK). }
      revert I. generalize (mis M k (predict T x)). generalize (List.concat M). clear. intros l z.
      assert (Q : forall l m, (m <= fold_left (fun m c => if (m <? c)%Z then c else m) l m)%Z).
      { clear. induction l as [|c l IH]; intros m; cbn; [lia|]. specialize (IH (if (m <? c)%Z then c else m)). destruct (Z.ltb_spec m c); lia. }
      revert low. induction l as [|c l IH]; intros low I; [destruct I|]. cbn [fold_left]. destruct I as [->|I]; [|now apply IH].
      specialize (Q l (if (low <? z)%Z then z else low)). destruct (Z.ltb_spec low z); lia. }
    destruct (predict T x =? k); lia.
  Qed.
End Tables.

(** ** What does not hold *)
(** The total test costs are no bound in general: the cheap feature of a group is paid in full
    and the dear one at a discount, but a path may test the dear one only. *)
Theorem C36_total_bound_refuted : exists specs path, divides specs /\ nonneg specs /\ Forall (fun f => f < num_binary specs) path /\
  (total_test_costs (initialize specs) < bill specs [] path)%Z.
Proof.
  exists [FCS 10 0 "g" 0 0; FCS 100 50 "g" 1 1], [1]. split; [|split; [|split; [|vm_compute; reflexivity]]].
  - split; [repeat (apply Forall_cons; [cbn; lia|]); apply Forall_nil|]. split.
    + cbn. repeat (apply NoDup_cons; [cbn; intuition discriminate|]). apply NoDup_nil.
    + cbn. repeat (apply Forall_cons; [lia|]). apply Forall_nil.
  - repeat (apply Forall_cons; [cbn; lia|]). apply Forall_nil.
  - apply Forall_cons; [cbn; lia|apply Forall_nil].
Qed.
(** With a cost on right predictions the two leaf costs differ. *)
Theorem C36_diagonal_refuted : exists M v l, d2_costs M v l <> leaf_costs M v l.
Proof. exists [[3; 1]; [1; 3]]%Z, [[Inst 0 (fv_make [false])]; []], 0. vm_compute. discriminate. Qed.

(** ** Costs per instance *)
Theorem C36_instance_costs w v l : (forall x, In x (List.concat v) -> (0 <= w x l)%Z) -> ics_d2 w v l = ics_leaf w v l.
Proof.
  intros H. unfold ics_d2, ics_leaf.
  assert (A : forall xs a, fold_left (fun a x => (a + w x l)%Z) xs a = (a + zsum (map (fun x => w x l) xs))%Z).
  { induction xs as [|x xs IH]; intros a; cbn [fold_left map zsum]; [lia|]. rewrite IH. lia. }
  assert (B : forall v a, fold_left (fun a xs => fold_left (fun a x => (a + w x l)%Z) xs a) v a = (a + zsum (map (fun x => w x l) (List.concat v)))%Z).
  { clear H v. induction v as [|xs v IH]; intros a; cbn [fold_left List.concat]; [cbn; lia|]. rewrite IH, A, map_app, zsum_app. lia. }
  assert (C : fold_right (fun x a => (1 * w x l + a)%Z) 0%Z (List.concat v) = zsum (map (fun x => w x l) (List.concat v))).
  { generalize (List.concat v). intros xs. induction xs as [|x xs IH]; [reflexivity|]. cbn [fold_right map zsum]. rewrite IH. lia. }
  rewrite B, C. assert (P : (0 <= zsum (map (fun x => w x l) (List.concat v)))%Z).
  { revert H. generalize (List.concat v). intros xs. induction xs as [|x xs IH]; intros H; cbn [map zsum]; [lia|]. pose proof (H x (or_introl eq_refl)). specialize (IH (fun y I => H y (or_intror I))). lia. }
  destruct (Z.ltb_spec (zsum (map (fun x => w x l) (List.concat v))) 0); lia.
Qed.
(** Negative costs are cut off by the depth-two solver only. *)
Theorem C36_negative_costs_refuted : exists w v l, ics_d2 w v l <> ics_leaf w v l.
Proof. exists (fun _ _ => (-1)%Z), [[Inst 0 (fv_make [false])]], 0. vm_compute. discriminate. Qed.

(** ** Example: three original features, five binary ones *)
Definition ex_specs : list fcs := [FCS 10 4 "blood" 0 1; FCS 20 14 "blood" 2 2; FCS 7 7 "xray" 3 4].
Example ex_divides : divides ex_specs /\ nonneg ex_specs /\ uniform ex_specs.
Proof.
  split; [|split].
  - split; [repeat (apply Forall_cons; [cbn; lia|]); apply Forall_nil|]. split.
    + cbn. repeat (apply NoDup_cons; [cbn; intuition discriminate|]). apply NoDup_nil.
    + cbn. repeat (apply Forall_cons; [lia|]). apply Forall_nil.
  - repeat (apply Forall_cons; [cbn; lia|]). apply Forall_nil.
  - intros a b A B. cbn in A, B. destruct a as [|[|[|a]]]; destruct b as [|[|[|b]]]; cbn; try lia; try discriminate; reflexivity.
Qed.
Example ex_bill : bill ex_specs [] [2; 0; 3; 1] = 31%Z /\ path_charges ex_specs [] [(2, true); (0, false); (3, true); (1, true)] = 31%Z /\ total_test_costs (initialize ex_specs) = 31%Z.
Proof. repeat split; vm_compute; reflexivity. Qed.
Definition ex_matrix : list (list Z) := [[0; 5]; [9; 0]]%Z.
Example ex_cost : let v := [[Inst 0 (fv_make [true; false; true; false; false]); Inst 1 (fv_make [false; false; false; true; false])]; [Inst 2 (fv_make [true; true; false; false; true])]] in
  let T := Split 2 (Split 3 (Leaf 1) (Leaf 1)) (Leaf 0) in
  zero_diagonal ex_matrix /\ search_cost ex_matrix (initialize ex_specs) v [] T = 79%Z /\ d2_tree_cost ex_matrix (initialize ex_specs) v [] T = 79%Z.
Proof. split; [intros [|[|[|k]]]; reflexivity|]. split; vm_compute; reflexivity. Qed.

Print Assumptions C36_tables.
Print Assumptions C36_charge.
Print Assumptions C36_path_charges.
Print Assumptions C36_tree_cost.
Print Assumptions C36_leaf_costs.
Print Assumptions C36_depth_two.
Print Assumptions C36_total_test_costs.
Print Assumptions C36_total_is_bound.
Print Assumptions C36_worst_instance.
Print Assumptions C36_total_bound_refuted.
Print Assumptions C36_diagonal_refuted.
Print Assumptions C36_instance_costs.
Print Assumptions C36_negative_costs_refuted.
