(** C90: the score of cost-sensitive trees.  C91: cost files.  C92: cost tables that fit the data. *)
From Coq Require Import List Arith Bool Lia ZArith QArith Lqa Ascii String.
From Verif Require Import Base_Q Model_FeatureVector Model_Data Model_Node Model_Terminal Model_Solver Model_Preproc Model_Params Model_FileReader Model_CostSensitive Model_Tasks Model_CostFile
  Spec_Tree Spec_Examples Spec_Rows Spec_Tasks Proofs_Rows Props_FileReader Props_CostSensitive Props_Tasks Props_Costs.
Import ListNotations.
Local Open Scope list_scope.
Local Open Scope nat_scope.

(** * C90 *)
(** The number of rows with a label. *)
Definition of_class (rows : list (list nat * nat)) (k : nat) : nat := List.length (filter (fun p => snd p =? k) rows).
Lemma count_sum rows : forall a nl, Forall (fun p : list nat * nat => a <= snd p < a + nl) rows ->
  fold_right Nat.add 0 (map (of_class rows) (seq a nl)) = List.length rows.
Proof.
  induction rows as [|p rows IH]; intros a nl H; [clear; revert a; induction nl as [|nl IH]; intro a; [reflexivity|]; cbn [seq map fold_right]; rewrite IH; reflexivity|].
  inversion_clear H as [|? ? Hp Hr]. rewrite <- (IH a nl Hr) at 1 || idtac. cbn [List.length]. rewrite <- (IH a nl Hr). clear IH Hr.
  revert a Hp. induction nl as [|nl IHn]; intros a Hp; [lia|]. cbn [seq map fold_right].
  assert (E : of_class (p :: rows) a = (if snd p =? a then 1 else 0) + of_class rows a) by (unfold of_class; cbn [filter]; destruct (snd p =? a); reflexivity).
  rewrite E. destruct (Nat.eqb_spec (snd p) a) as [Ea|Na].
  - assert (X : forall l, Forall (fun k => a < k) l -> map (of_class (p :: rows)) l = map (of_class rows) l).
    { intros l Hl. apply map_ext_in. intros k Hk. apply (proj1 (Forall_forall _ _) Hl) in Hk. unfold of_class. cbn [filter]. destruct (Nat.eqb_spec (snd p) k); [lia|reflexivity]. }
    rewrite X; [lia|]. apply Forall_forall. intros k Hk. apply in_seq in Hk. lia.
  - rewrite (IHn (S a)) by lia. lia.
Qed.
Lemma labels_below rows : Forall (fun p : list nat * nat => snd p < label_count (map snd rows)) rows.
Proof.
  induction rows as [|p rows IH]; constructor; cbn [map label_count fold_right]; [lia|]. eapply Forall_impl; [|exact IH]. cbn beta. intros q Hq. unfold label_count in Hq. lia.
Qed.
Lemma counts_sum rows : fold_right Nat.add 0 (class_counts (label_count (map snd rows)) rows) = List.length rows.
Proof. unfold class_counts. apply (count_sum rows 0). eapply Forall_impl; [|apply labels_below]. cbn beta. intros p Hp. lia. Qed.
Lemma max_at l : l <> [] -> exists k, k < List.length l /\ nth k l 0 = fold_right Nat.max 0 l.
Proof.
  induction l as [|x l IH]; [congruence|]. intros _. cbn [fold_right List.length]. destruct l as [|y l].
  - exists 0. cbn. lia.
  - destruct IH as (k & Hk & E); [discriminate|]. destruct (Nat.max_spec x (fold_right Nat.max 0 (y :: l))) as [[H ->]|[H ->]]; [exists (S k); split; [cbn in *; lia|exact E]|exists 0; split; [lia|reflexivity]].
Qed.
Lemma max_mis_ge M z : In z (List.concat M) -> (z <= max_mis 0 M)%Z.
Proof.
  unfold max_mis. generalize (List.concat M) 0%Z. intros l. assert (Q : forall l m, (m <= fold_left (fun m c => if (m <? c)%Z then c else m) l m)%Z).
  { induction l0 as [|c l0 IH]; intros m; cbn; [lia|]. specialize (IH (if (m <? c)%Z then c else m)). destruct (Z.ltb_spec m c); lia. }
  induction l as [|c l IH]; intros m I; [destruct I|]. cbn [fold_left]. destruct I as [->|I]; [|apply IH; exact I]. specialize (Q l (if (m <? z)%Z then z else m)). destruct (Z.ltb_spec m z); lia.
Qed.
Lemma max_mis_nonneg M : (0 <= max_mis 0 M)%Z.
Proof.
  unfold max_mis. generalize (List.concat M). assert (Q : forall l m, (m <= fold_left (fun m c => if (m <? c)%Z then c else m) l m)%Z); [|intro l; apply Q].
  induction l as [|c l0 IH]; intros m; cbn; [lia|]. specialize (IH (if (m <? c)%Z then c else m)). destruct (Z.ltb_spec m c); lia.
Qed.

(** Predicting one class for all rows costs at most the largest entry for every other row. *)
Lemma constant_cost M rows b : (forall k, nth k (nth k M []) 0%Z = 0%Z) -> (forall k l, (0 <= nth l (nth k M []) 0 <= max_mis 0 M)%Z) ->
  (mis_total M rows (Leaf b) <= Z.of_nat (List.length rows - of_class rows b) * max_mis 0 M)%Z.
Proof.
  intros Hd Hm. assert (Hc : of_class rows b <= List.length rows) by (unfold of_class; clear; induction rows as [|p r IH]; cbn; [lia|]; destruct (_ =? _); cbn; lia).
  unfold mis_total, total. cbn [row_predict]. induction rows as [|p rows IH]; cbn [fold_right List.length]; [lia|].
  assert (Hc' : of_class rows b <= List.length rows) by (unfold of_class; clear; induction rows as [|q r IH]; cbn; [lia|]; destruct (_ =? _); cbn; lia).
  specialize (IH Hc'). pose proof (max_mis_nonneg M). unfold of_class in *. cbn [filter] in *. destruct (Nat.eqb_spec (snd p) b) as [->|N].
  - rewrite Hd. cbn [List.length]. rewrite Z.add_0_l. exact IH.
  - pose proof (Hm (snd p) b). replace (S (List.length rows) - List.length (filter (fun q => snd q =? b) rows)) with (S (List.length rows - List.length (filter (fun q => snd q =? b) rows))) by lia. lia.
Qed.

(** Bills are not negative. *)
Lemma bill_ge0 specs : Forall (fun s => (0 <= fc_cost s)%Z /\ (0 <= fc_disc s)%Z) specs -> forall p bought, (0 <= bill specs bought p)%Z.
Proof.
  intros N. induction p as [|f p IH]; intros bought; cbn [bill]; [lia|]. destruct (attr specs f) as [a|] eqn:A; [|apply IH]. specialize (IH (a :: bought)).
  assert (X : (0 <= fc_cost (spec_of specs a))%Z /\ (0 <= fc_disc (spec_of specs a))%Z) by (unfold spec_of; destruct (nth_in_or_default a specs (FCS 0 0 "" 0 0)) as [H|H]; [exact (proj1 (Forall_forall _ _) N _ H)|rewrite H; cbn; lia]).
  unfold price. destruct (existsb _ bought); [lia|]. destruct (existsb _ bought); lia.
Qed.

(** The score of a value on data with the given class counts: at most 1 if the value is at most
    that of a constant prediction, ranks like the value, and 0 only for the value 0. *)
Lemma score_form value tt mx counts s : cs_score value tt mx counts = Some s -> (0 <= tt)%Z -> (0 <= mx)%Z -> 0 < fold_right Nat.add 0 counts ->
  let n := fold_right Nat.add 0 counts in let d := (tt * Z.of_nat n + Z.of_nat (n - fold_right Nat.max 0%nat counts) * mx)%Z in
  (0 < d)%Z /\ (s == inject_Z value / inject_Z d)%Q.
Proof.
  intros H Ht Hm Hn n d. unfold cs_score in H. fold n in H, Hn.
  assert (Hmx : fold_right Nat.max 0 counts <= n) by (unfold n; clear; induction counts; cbn; lia).
  set (std := (inject_Z tt + (1 - qn (fold_right Nat.max 0%nat counts) / qn n) * inject_Z mx)%Q) in *.
  destruct (Qeq_bool std 0) eqn:E; [discriminate|]. injection H as <-. apply Qeq_bool_neq in E.
  assert (Hq : (0 < qn n)%Q) by (apply qn_pos; exact Hn).
  assert (Hd : (std * qn n == inject_Z d)%Q).
  { unfold std, d. rewrite inject_Z_plus, !inject_Z_mult. replace (Z.of_nat (n - fold_right Nat.max 0%nat counts)) with (Z.of_nat n - Z.of_nat (fold_right Nat.max 0%nat counts))%Z by lia.
    unfold Z.sub. rewrite inject_Z_plus, inject_Z_opp. unfold qn in *. field. lra. }
  assert (Hd0 : (0 <= d)%Z) by (unfold d; nia). assert (Hne : d <> 0%Z) by (intros Z; rewrite Z in Hd; change (inject_Z 0) with 0%Q in Hd; apply Qmult_integral in Hd; destruct Hd as [Hd|Hd]; [contradiction|lra]).
  split; [lia|]. rewrite <- Hd. field. split; [lra|exact E].
Qed.
Theorem C90_rank : forall tt mx counts v1 v2 s1 s2, (0 <= tt)%Z -> (0 <= mx)%Z -> 0 < fold_right Nat.add 0 counts ->
  cs_score v1 tt mx counts = Some s1 -> cs_score v2 tt mx counts = Some s2 -> ((s1 < s2)%Q <-> (v1 < v2)%Z) /\ ((s1 == 0)%Q <-> v1 = 0%Z).
Proof.
  intros tt mx counts v1 v2 s1 s2 Ht Hm Hn H1 H2. destruct (score_form _ _ _ _ _ H1 Ht Hm Hn) as [Hd E1]. destruct (score_form _ _ _ _ _ H2 Ht Hm Hn) as [_ E2].
  set (d := (tt * _ + _)%Z) in *. assert (Hq : (0 < inject_Z d)%Q) by (change 0%Q with (inject_Z 0); rewrite <- Zlt_Qlt; exact Hd). rewrite E1, E2. split.
  - rewrite (Zlt_Qlt v1 v2). unfold Qdiv. apply Qmult_lt_r. apply Qinv_lt_0_compat. exact Hq.
  - split; intro H; [|rewrite H; unfold Qdiv; ring]. assert (X : (inject_Z v1 == 0)%Q) by (setoid_replace (inject_Z v1) with (inject_Z v1 / inject_Z d * inject_Z d)%Q by (field; lra); rewrite H; ring).
    exact (proj1 (inject_Z_injective v1 0) X).
Qed.

(** The training score of an optimal tree is between 0 and 1 (where C84 gives an optimal tree). *)
Theorem C90_at_most_one_partial : forall M specs W P nf clk rows, costs_usable M specs W P nf rows -> w_mls W <= List.length rows ->
  (Z.of_nat (List.length rows) * max_mis 0 M <= p_ub P)%Z ->
  let R := fit_cost_sensitive M specs W P nf clk rows in fr_proven R = true ->
  exists t, fr_tree R = Some t
    /\ forall s, cs_score (bill_total M specs rows t) (total_test_costs (initialize specs)) (max_mis 0 M) (class_counts (label_count (map snd rows)) rows) = Some s -> (0 <= s <= 1)%Q.
Proof.
  intros M specs W P nf clk rows HU Hsz Hub R Hp. subst R. set (nl := label_count (map snd rows)).
  destruct (ku_matrix _ _ _ _ _ _ HU) as [HM1 HM2]. fold nl in HM1.
  assert (Hrow : rows <> []) by exact (ku_some _ _ _ _ _ _ HU).
  assert (Hpos : 0 < List.length rows) by (destruct rows; [congruence|cbn; lia]).
  assert (Hnl : 0 < nl) by (unfold nl; pose proof (labels_below rows) as X; destruct rows; [congruence|]; inversion X; lia).
  assert (Hent : forall k l, (0 <= nth l (nth k M []) 0 <= max_mis 0 M)%Z).
  { intros k l. destruct (nth_in_or_default k M []) as [Hk|Hk]; [|rewrite Hk; replace (nth l [] 0%Z) with 0%Z by (destruct l; reflexivity); pose proof (max_mis_nonneg M); lia].
    pose proof (proj2 (proj1 (Forall_forall _ _) HM2 _ Hk)) as H0. split; [apply nth_nonneg; exact H0|].
    destruct (nth_in_or_default l (nth k M []) 0%Z) as [Hl|Hl]; [|rewrite Hl; apply max_mis_nonneg]. apply max_mis_ge. apply in_concat. exists (nth k M []). auto. }
  destruct (max_at (class_counts nl rows)) as (b & Hb & Eb); [unfold class_counts; destruct nl; [lia|discriminate]|].
  assert (Hlen : List.length (class_counts nl rows) = nl) by (unfold class_counts; rewrite map_length, seq_length; reflexivity). rewrite Hlen in Hb.
  assert (Eb' : nth b (class_counts nl rows) 0 = of_class rows b).
  { unfold class_counts. rewrite (nth_indep _ 0 (of_class rows 0)) by (rewrite map_length, seq_length; exact Hb). rewrite (map_nth (of_class rows)). rewrite seq_nth by exact Hb. reflexivity. }
  rewrite Eb' in Eb.
  assert (Hleaf : row_allowed nf nl (w_mls W) (p_depth P) (p_nodes P) rows (Leaf b)) by (split; [exact Hb|]; split; [exact Hsz|]; split; cbn; lia).
  assert (Hbl : bill_total M specs rows (Leaf b) = mis_total M rows (Leaf b)).
  { unfold bill_total. cbn [row_path bill]. replace (total _ rows) with 0%Z; [lia|]. unfold total. clear. induction rows as [|p r IH]; cbn [fold_right]; [reflexivity|]. rewrite <- IH. reflexivity. }
  pose proof (constant_cost M rows b (ku_diag _ _ _ _ _ _ HU) Hent) as Hc. rewrite <- Hbl, Eb in Hc.
  pose proof (max_mis_nonneg M) as Hmm.
  assert (Hmax : fold_right Nat.max 0 (class_counts nl rows) <= List.length rows) by (rewrite <- Eb; unfold of_class; clear; induction rows as [|p r IH]; cbn; [lia|]; destruct (_ =? _); cbn; lia).
  destruct (C84_test_costs_partial M specs W P nf clk rows HU Hp) as (t & R1 & R2 & R3 & R4).
  { exists (Leaf b). split; [exact Hleaf|]. assert (Z.of_nat (List.length rows - fold_right Nat.max 0%nat (class_counts nl rows)) * max_mis 0 M <= Z.of_nat (List.length rows) * max_mis 0 M)%Z by (apply Z.mul_le_mono_nonneg_r; lia). lia. }
  exists t. split; [exact R1|]. intros s Hs. specialize (R4 _ Hleaf).
  destruct (ku_specs _ _ _ _ _ _ HU) as [Hdv Hnb].
  assert (Htt : (0 <= total_test_costs (initialize specs))%Z).
  { rewrite (C36_total_test_costs specs Hdv). apply bill_ge0. exact (ku_fees _ _ _ _ _ _ HU). }
  assert (Hsum : fold_right Nat.add 0 (class_counts nl rows) = List.length rows) by apply counts_sum.
  assert (Hval : (0 <= bill_total M specs rows t)%Z).
  { unfold bill_total, mis_total, total. apply Z.add_nonneg_nonneg.
    - induction rows as [|p r IH]; cbn [fold_right]; [lia|]. pose proof (Hent (snd p) (row_predict t (fst p))).
      assert (X : forall r : list (list nat * nat), (0 <= fold_right (fun p a => nth (row_predict t (fst p)) (nth (snd p) M []) 0 + a) 0 r)%Z) by (induction r0 as [|q r0 IH0]; cbn [fold_right]; [lia|]; pose proof (Hent (snd q) (row_predict t (fst q))); lia). specialize (X r). lia.
    - assert (X : forall r : list (list nat * nat), (0 <= fold_right (fun p a => bill specs [] (row_path t (fst p)) + a) 0 r)%Z); [|apply X].
      induction r as [|q r0 IH0]; cbn [fold_right]; [lia|]. pose proof (bill_ge0 specs (ku_fees _ _ _ _ _ _ HU) (row_path t (fst q)) []). lia. }
  destruct (score_form _ _ _ _ _ Hs Htt Hmm ltac:(rewrite Hsum; exact Hpos)) as [Hd E]. rewrite Hsum in *.
  set (d := (total_test_costs (initialize specs) * _ + _)%Z) in *. assert (Hq : (0 < inject_Z d)%Q) by (change 0%Q with (inject_Z 0); rewrite <- Zlt_Qlt; exact Hd). rewrite E.
  assert (Hle : (bill_total M specs rows t <= d)%Z) by (unfold d; nia). split.
  - apply Qle_shift_div_l; [exact Hq|]. rewrite Qmult_0_l. change 0%Q with (inject_Z 0). rewrite <- Zle_Qle. exact Hval.
  - apply Qle_shift_div_r; [exact Hq|]. rewrite Qmult_1_l, <- Zle_Qle. exact Hle.
Qed.

(** The training data of one class and no test costs: the score divides by zero. *)
Theorem C90_one_class_refuted : forall value mx rows, rows <> [] -> (exists k, Forall (fun p => snd p = k) rows) ->
  cs_score value 0 mx (class_counts (label_count (map snd rows)) rows) = None.
Proof.
  intros value mx rows Hr [k Hk]. unfold cs_score. set (cs := class_counts _ rows).
  assert (Hs : fold_right Nat.add 0 cs = List.length rows) by apply counts_sum. rewrite Hs.
  assert (Hc : of_class rows k = List.length rows).
  { unfold of_class. clear -Hk. induction Hk as [|p r E _ IH]; [reflexivity|]. cbn [filter]. rewrite E, Nat.eqb_refl. cbn [List.length]. now rewrite IH. }
  assert (Hkl : k < label_count (map snd rows)) by (pose proof (labels_below rows) as X; destruct rows; [congruence|]; inversion X; inversion Hk; subst; assumption).
  assert (Hin : In (List.length rows) cs).
  { unfold cs, class_counts. rewrite <- Hc. apply (in_map (of_class rows)). apply in_seq. lia. }
  assert (Hm : fold_right Nat.max 0 cs = List.length rows).
  { assert (H1 : forall l x, In x l -> x <= fold_right Nat.max 0 l) by (induction l as [|y l IH]; intros x []; cbn [fold_right]; [lia|specialize (IH x H); lia]).
    assert (H2 : forall l, fold_right Nat.max 0 l <= fold_right Nat.add 0 l) by (induction l as [|y l IH]; cbn [fold_right]; lia).
    specialize (H1 _ _ Hin). specialize (H2 cs). lia. }
  rewrite Hm. assert (Hq : (0 < qn (List.length rows))%Q) by (apply qn_pos; destruct rows; [congruence|cbn; lia]).
  assert (E : (inject_Z 0 + (1 - qn (List.length rows) / qn (List.length rows)) * inject_Z mx == 0)%Q) by (change (inject_Z 0) with 0%Q; field; lra).
  apply Qeq_bool_iff in E. rewrite E. reflexivity.
Qed.

Definition score_M : list (list Z) := [[0;15];[27;0]]%Z.
Example C90_ex : let P := Params 3 7 false no_bound in let W := plain_defaults true 1 in
  costs_usable score_M bill_specs W P 4 bill_rows /\ w_mls W <= List.length bill_rows /\ (Z.of_nat (List.length bill_rows) * max_mis 0 score_M <= p_ub P)%Z
  /\ fr_proven (fit_cost_sensitive score_M bill_specs W P 4 (fun _ => true) bill_rows) = true
  /\ exists s, cs_score 40 (total_test_costs (initialize bill_specs)) (max_mis 0 score_M) (class_counts 2 bill_rows) = Some s /\ (s == 8 # 39)%Q.
Proof.
  cbv zeta. destruct C84_test_costs_ex as (H1 & H2 & _). split; [exact H1|]. split; [cbn; lia|]. split; [vm_compute; discriminate|]. split; [exact H2|].
  eexists. split; [reflexivity|]. vm_compute. reflexivity.
Qed.

(** * C91 *)
(** A line of words: blanks between them, before the first and behind the last. *)
Definition word (w : text) : Prop := w <> [] /\ Forall (fun c => is_space c = false) w.
Inductive spaced : list text -> text -> Prop :=
| sp_end b : Forall blank b -> spaced [] b
| sp_word b w ws r : Forall blank b -> word w -> ends r -> spaced ws r -> spaced (w :: ws) (b ++ w ++ r).
(** A decimal number: an optional minus, digits, and a point with digits if [dm_frac] is given. *)
Record dec := Dec { dm_neg : bool; dm_int : text; dm_frac : option text }.
Definition digits (s : text) : Prop := s <> [] /\ Forall (fun c => is_digit c = true) s.
Definition is_dec (d : dec) : Prop := digits (dm_int d) /\ match dm_frac d with Some f => digits f | None => True end.
Definition dec_text (d : dec) : text := (if dm_neg d then ["-"%char] else []) ++ dm_int d ++ match dm_frac d with Some f => "."%char :: f | None => [] end.
Definition frac (d : dec) : text := match dm_frac d with Some f => f | None => [] end.
Definition dec_value (d : dec) : Q :=
  let q := (inject_Z (Z.of_N (decimal 0 (dm_int d ++ frac d))) / inject_Z (10 ^ Z.of_nat (List.length (frac d))))%Q in if dm_neg d then (- q)%Q else q.

Lemma read_digits_stop ds : forall a s, Forall (fun c => is_digit c = true) ds -> match s with [] => True | c :: _ => is_digit c = false end -> read_digits a (ds ++ s) = (decimal a ds, s).
Proof.
  induction ds as [|c ds IH]; intros a s A H; [destruct s as [|c s]; cbn; [reflexivity|rewrite H; reflexivity]|].
  inversion_clear A as [|? ? D A']. cbn [app read_digits decimal]. rewrite D. now apply IH.
Qed.
Lemma decimal_app a x y : decimal a (x ++ y) = decimal (decimal a x) y.
Proof. revert a. induction x as [|c x IH]; intro a; [reflexivity|]. cbn. apply IH. Qed.
Lemma read_dec_text d s : is_dec d -> ends s -> read_dec (dec_text d ++ s) = Some (dec_value d, s).
Proof.
  intros [[I1 I2] F] E. unfold read_dec, dec_text. set (body := dm_int d ++ match dm_frac d with Some f => "."%char :: f | None => [] end).
  assert (Sg : forall X (k : bool * text -> X), k (match ((if dm_neg d then ["-"%char] else []) ++ body) ++ s with
                | c :: r => if Ascii.eqb c "-" then (true, r) else if Ascii.eqb c "+" then (false, r) else (false, ((if dm_neg d then ["-"%char] else []) ++ body) ++ s)
                | [] => (false, ((if dm_neg d then ["-"%char] else []) ++ body) ++ s) end) = k (dm_neg d, body ++ s)).
  { intros X k. f_equal. destruct (dm_neg d); [reflexivity|]. cbn [app]. unfold body. destruct (dm_int d) as [|c i]; [now elim I1|]. cbn [app]. inversion_clear I2 as [|? ? D _]. destruct (digit_facts c D) as (_ & F2 & F3 & _). rewrite F2, F3. reflexivity. }
  match goal with |- (let '(neg, s1) := _ in @?k neg s1) = _ => transitivity (let '(neg, s1) := (dm_neg d, body ++ s) in k neg s1); [exact (Sg _ (fun p => let '(neg, s1) := p in k neg s1))|] end. cbv beta iota.
  unfold body. rewrite <- app_assoc. unfold dec_value, frac. destruct (dm_frac d) as [f|].
  - destruct F as [F1 F2]. rewrite read_digits_stop; [|exact I2|reflexivity]. cbn [app]. change (Ascii.eqb "." ".") with true. cbv iota.
    rewrite read_digits_stop; [|exact F2|destruct s; [exact I|apply space_not_digit; exact E]]. rewrite <- decimal_app.
    assert (L : (List.length (dm_int d ++ "."%char :: f ++ s) - List.length s =? 1) = false).
    { apply Nat.eqb_neq. rewrite app_length. cbn [List.length]. rewrite app_length. destruct f; [now elim F1|]. cbn [List.length]. lia. }
    rewrite L. rewrite app_length. replace (List.length f + List.length s - List.length s) with (List.length f) by lia. reflexivity.
  - cbn [app]. rewrite read_digits_stop; [|exact I2|destruct s; [exact I|apply space_not_digit; exact E]]. rewrite app_nil_r.
    assert (L : (List.length (dm_int d ++ s) - List.length s =? 0) = false) by (apply Nat.eqb_neq; rewrite app_length; destruct (dm_int d); [now elim I1|]; cbn [List.length]; lia).
    destruct s as [|c s].
    + rewrite L. reflexivity.
    + assert (Hc : Ascii.eqb c "." = false) by (apply Ascii.eqb_neq; intros ->; discriminate E). rewrite Hc, L. reflexivity.
Qed.
Lemma skip_blanks b s : Forall blank b -> skip_ws (b ++ s) = skip_ws s.
Proof. induction 1 as [|c b [Hc _] _ IH]; [reflexivity|]. cbn [app]. rewrite skip_ws_blank by exact Hc. exact IH. Qed.
Lemma skip_word w r : word w -> skip_ws (w ++ r) = w ++ r.
Proof. intros [N A]. destruct w as [|c w]; [now elim N|]. inversion_clear A as [|? ? Hc _]. cbn. rewrite Hc. reflexivity. Qed.
Lemma digits_word w : Forall (fun c => is_digit c = true) w -> Forall (fun c => is_space c = false) w.
Proof. apply Forall_impl. intros c H. apply (digit_facts c H). Qed.
Lemma dec_word d : is_dec d -> word (dec_text d).
Proof.
  intros [[I1 I2] F]. unfold dec_text. split.
  - destruct (dm_neg d), (dm_int d); try discriminate; now elim I1.
  - apply Forall_app. split; [destruct (dm_neg d); repeat constructor|]. apply Forall_app. split; [now apply digits_word|]. destruct (dm_frac d) as [f|]; constructor; [reflexivity|]. apply digits_word. apply F.
Qed.
Lemma take_num_word b d r old : Forall blank b -> is_dec d -> ends r -> take_num (true, b ++ dec_text d ++ r) old = ((true, r), Some (dec_value d)).
Proof.
  intros B D E. unfold take_num. cbn [fst snd]. rewrite skip_blanks, skip_word by (exact B || apply dec_word; exact D).
  destruct (dec_text d ++ r) eqn:X; [|rewrite <- X, read_dec_text by assumption; reflexivity]. pose proof (dec_word d D) as [N _]. destruct (dec_text d); [now elim N|discriminate].
Qed.
Lemma take_int_word b w z r old : Forall blank b -> numeral w z -> ends r -> take_int (true, b ++ w ++ r) old = ((true, r), Some z).
Proof.
  intros B D E. assert (Hw : word w) by (destruct D as (N & A & _); split; [exact N|now apply digits_word]). unfold take_int. cbn [fst snd].
  rewrite skip_blanks, skip_word by assumption. destruct (w ++ r) eqn:X; [|rewrite <- X, (read_int_numeral w z) by assumption; reflexivity]. destruct Hw as [N _]. destruct w; [now elim N|discriminate].
Qed.
Lemma split_word_at w r : Forall (fun c => is_space c = false) w -> ends r -> split_word (w ++ r) = (w, r).
Proof.
  intros A E. induction A as [|c w Hc _ IH]; [destruct r as [|c r]; cbn; [reflexivity|cbn in E; rewrite E; reflexivity]|]. cbn. rewrite Hc, IH. reflexivity.
Qed.
Lemma take_word_word b w r old : Forall blank b -> word w -> ends r -> take_word (true, b ++ w ++ r) old = ((true, r), w).
Proof.
  intros B Hw E. unfold take_word. cbn [fst snd]. rewrite skip_blanks, skip_word by assumption. 
  destruct (w ++ r) eqn:X; [|rewrite <- X, split_word_at by (exact E || apply Hw); reflexivity]. destruct Hw as [N _]. destruct w; [now elim N|discriminate].
Qed.
Lemma last_cons {A} (l : list A) : forall x old, last (x :: l) old = last l x.
Proof. induction l as [|y l IH]; intros x old; [reflexivity|]. transitivity (last l y); [apply (IH y old)|symmetry; apply (IH y x)]. Qed.
(** What a row gets when the line has fewer numbers than labels: the last number again. *)
Lemma read_row_words row : forall n line old, Forall is_dec row -> spaced (map dec_text row) line -> List.length row <= n ->
  read_costs_row n (true, line) old = map (fun d => Some (dec_value d)) row ++ repeat (last (map (fun d => Some (dec_value d)) row) old) (n - List.length row).
Proof.
  induction row as [|d row IH]; intros n line old D Sp L.
  - cbn [map last List.length app]. rewrite Nat.sub_0_r. inversion Sp as [b B|]; subst.
    assert (X : forall n, read_costs_row n (false, []) old = repeat old n) by (induction n0 as [|k IHk]; cbn; [reflexivity|]; f_equal; exact IHk).
    destruct n as [|n]; [reflexivity|]. cbn [read_costs_row repeat]. unfold take_num. cbn [fst snd]. rewrite <- (app_nil_r line), skip_blanks by exact B. cbn [skip_ws]. f_equal. apply X.
  - cbn [map] in Sp. inversion Sp as [|b w ws r B Hw E Sr]; subst. inversion_clear D as [|? ? D1 D2]. cbn [List.length] in L. destruct n as [|n]; [lia|].
    cbn [read_costs_row]. rewrite take_num_word by assumption. rewrite (IH n r (Some (dec_value d)) D2 Sr) by lia. cbn [map List.length app]. f_equal. f_equal.
    replace (S n - S (List.length row)) with (n - List.length row) by lia. f_equal. symmetry. apply last_cons.
Qed.

(** The line of an original feature: name, cost, discount cost, group, first and last binary
    feature. *)
Record fdesc := FDesc { ds_name : text; ds_cost : dec; ds_disc : dec; ds_group : text; ds_lo : Z; ds_hi : Z }.
Definition describes (f : fdesc) (line : text) : Prop :=
  word (ds_name f) /\ is_dec (ds_cost f) /\ is_dec (ds_disc f) /\ word (ds_group f)
  /\ exists lo hi, numeral lo (ds_lo f) /\ numeral hi (ds_hi f) /\ spaced [ds_name f; dec_text (ds_cost f); dec_text (ds_disc f); ds_group f; lo; hi] line.
Definition as_read (f : fdesc) : fline := FLine (Some (dec_value (ds_cost f))) (Some (dec_value (ds_disc f))) (ds_group f) (Some (ds_lo f)) (Some (ds_hi f)).
Lemma read_fline_words f line : describes f line -> read_fline line = as_read f.
Proof.
  intros (N & C & D & G & lo & hi & L & H & S). unfold read_fline, as_read.
  inversion S as [|b1 w1 ws1 r1 B1 W1 E1 S1]; subst. inversion S1 as [|b2 w2 ws2 r2 B2 W2 E2 S2]; subst. inversion S2 as [|b3 w3 ws3 r3 B3 W3 E3 S3]; subst.
  inversion S3 as [|b4 w4 ws4 r4 B4 W4 E4 S4]; subst. inversion S4 as [|b5 w5 ws5 r5 B5 W5 E5 S5]; subst. inversion S5 as [|b6 w6 ws6 r6 B6 W6 E6 S6]; subst.
  rewrite take_word_word by assumption. rewrite take_num_word by assumption. rewrite take_num_word by assumption. rewrite take_word_word by assumption.
  rewrite (take_int_word b5 lo (ds_lo f)) by assumption. rewrite (take_int_word b6 hi (ds_hi f)) by assumption. reflexivity.
Qed.
Lemma spaced_no_nl ws line : spaced ws line -> no_nl line.
Proof.
  unfold no_nl. induction 1 as [b B|b w ws r B [_ Hw] _ _ IH]; intros I.
  - apply (proj1 (Forall_forall _ _) B) in I. destruct I as [_ I]. now elim I.
  - rewrite !in_app_iff in I. destruct I as [I|[I|I]]; [apply (proj1 (Forall_forall _ _) B) in I; destruct I as [_ I]; now elim I|apply (proj1 (Forall_forall _ _) Hw) in I; discriminate I|exact (IH I)].
Qed.
Lemma lines_all ls : Forall no_nl ls -> lines (file_of true ls) = ls.
Proof.
  induction 1 as [|l ls N _ IH]; [reflexivity|]. cbn [file_of]. destruct ls as [|l' ls].
  - change (l ++ [nl]) with (l ++ nl :: []). rewrite lines_line by exact N. reflexivity.
  - rewrite lines_line by exact N. rewrite IH. reflexivity.
Qed.
Definition written_costs (M : list (list dec)) (fs : list fdesc) (mlines : list text) (hdr : text) (flines : list text) : Prop :=
  Forall (Forall is_dec) M /\ Forall2 (fun row line => spaced (map dec_text row) line) M mlines /\ no_nl hdr /\ Forall2 describes fs flines.
Lemma written_no_nl M fs mlines hdr flines : written_costs M fs mlines hdr flines -> Forall no_nl (mlines ++ hdr :: flines).
Proof.
  intros (_ & H1 & H2 & H3). apply Forall_app. split; [|constructor; [exact H2|]].
  - clear -H1. induction H1 as [|r l M ls S _ IH]; constructor; [exact (spaced_no_nl _ _ S)|exact IH].
  - clear -H3. induction H3 as [|f l fs ls D _ IH]; constructor; [|exact IH]. destruct D as (_ & _ & _ & _ & lo & hi & _ & _ & S). exact (spaced_no_nl _ _ S).
Qed.
Lemma f2_len {A B} (R : A -> B -> Prop) l l' : Forall2 R l l' -> List.length l = List.length l'.
Proof. induction 1; cbn; congruence. Qed.
Lemma read_lines n M fs mlines hdr flines rest file : written_costs M fs mlines hdr flines -> List.length M = n -> Forall (fun row => List.length row <= n) M ->
  lines file = mlines ++ hdr :: flines ++ rest ->
  read_costs n file = (map (fun row => map (fun d => Some (dec_value d)) row ++ repeat (last (map (fun d => Some (dec_value d)) row) None) (n - List.length row)) M, map as_read fs ++ map read_fline rest).
Proof.
  intros (H1 & H2 & H3 & H4) Hn Hr E. unfold read_costs. rewrite E. pose proof (f2_len _ _ _ H2) as HL. f_equal.
  - assert (X : forall M mlines off tail, Forall (Forall is_dec) M -> Forall2 (fun row line => spaced (map dec_text row) line) M mlines -> Forall (fun row => List.length row <= n) M ->
      forall pre, List.length pre = off -> map (fun i => match nth_error (pre ++ mlines ++ tail) i with Some l => read_costs_row n (true, l) None | None => repeat (Some 0%Q) n end) (seq off (List.length M))
        = map (fun row => map (fun d => Some (dec_value d)) row ++ repeat (last (map (fun d => Some (dec_value d)) row) None) (n - List.length row)) M).
    { clear. induction M as [|row M IH]; intros mlines off tail D S L pre P; [reflexivity|]. inversion S as [|? l ? ls S1 S2]; subst. inversion_clear D. inversion_clear L. cbn [List.length seq map]. f_equal.
      - rewrite nth_error_app2 by lia. rewrite Nat.sub_diag. cbn [nth_error app]. apply read_row_words; assumption.
      - replace (pre ++ (l :: ls) ++ tail) with ((pre ++ [l]) ++ ls ++ tail) by (rewrite <- app_assoc; reflexivity). apply IH; try assumption. rewrite app_length. cbn. lia. }
    pose proof (X M mlines 0 (hdr :: flines ++ rest) H1 H2 Hr [] eq_refl) as Y. rewrite Hn in Y. exact Y.
  - rewrite skipn_app. replace (S n - List.length mlines) with 1 by lia. rewrite skipn_all2 by lia. cbn [app skipn]. rewrite map_app. f_equal.
    clear -H4. induction H4 as [|f l fs ls D _ IH]; [reflexivity|]. cbn [map]. rewrite (read_fline_words f l D), IH. reflexivity.
Qed.

(** A file as it should be is read as it is written. *)
Theorem C91_read : forall n M fs mlines hdr flines fin, written_costs M fs mlines hdr flines -> List.length M = n -> Forall (fun row => List.length row = n) M ->
  0 < n -> hdr <> [] ->
  read_costs n (file_of fin (mlines ++ hdr :: flines)) = (map (map (fun d => Some (dec_value d))) M, map as_read fs).
Proof.
  intros n M fs mlines hdr flines fin H Hn Hr Hpos Hh.
  assert (HL : lines (file_of fin (mlines ++ hdr :: flines)) = mlines ++ hdr :: flines).
  { apply lines_file; [exact (written_no_nl _ _ _ _ _ H)|]. destruct H as (H1 & H2 & H3 & H4). apply Forall_app. split; [|constructor; [exact Hh|]].
    - assert (Hr' : Forall (fun row => row <> []) M) by (eapply Forall_impl; [|exact Hr]; cbn beta; intros r E ->; cbn in E; lia). clear -H2 Hr'.
      induction H2 as [|r l M ls S _ IH]; constructor; [|apply IH; inversion Hr'; assumption]. inversion_clear Hr' as [|? ? Hn _]. destruct r as [|d r]; [now elim Hn|]. inversion S as [|b w ws r' B [Hw _] E S']; subst. destruct b, (dec_text d); try discriminate; now elim Hw.
    - clear -H4. induction H4 as [|f l fs ls D _ IH]; constructor; [|exact IH]. destruct D as (_ & _ & _ & _ & lo & hi & _ & _ & S). inversion S as [|b w ws r' B [Hw _] E S']; subst. destruct b, (ds_name f); try discriminate; now elim Hw. }
  rewrite (read_lines n M fs mlines hdr flines [] _ H Hn); [|eapply Forall_impl; [|exact Hr]; cbn beta; intros; lia|rewrite app_nil_r; exact HL].
  cbn [map]. rewrite app_nil_r. f_equal. apply map_ext_in. intros row I. apply (proj1 (Forall_forall _ _) Hr) in I. rewrite I, Nat.sub_diag. cbn [repeat]. apply app_nil_r.
Qed.
(** An empty line at the end is read as a feature whose numbers have no value; rows with fewer
    numbers than labels are not refused. *)
Theorem C91_lines_refuted : forall n M fs mlines hdr flines, written_costs M fs mlines hdr flines -> List.length M = n -> Forall (fun row => List.length row <= n) M ->
  read_costs n (file_of true (mlines ++ hdr :: flines ++ [[]]))
  = (map (fun row => map (fun d => Some (dec_value d)) row ++ repeat (last (map (fun d => Some (dec_value d)) row) None) (n - List.length row)) M,
     map as_read fs ++ [FLine None None [] None None]).
Proof.
  intros n M fs mlines hdr flines H Hn Hr. rewrite (read_lines n M fs mlines hdr flines [[]] _ H Hn Hr); [reflexivity|]. apply lines_all.
  pose proof (written_no_nl _ _ _ _ _ H) as X. apply Forall_app in X. destruct X as [X1 X2]. inversion_clear X2 as [|? ? X3 X4]. apply Forall_app. split; [exact X1|]. constructor; [exact X3|]. apply Forall_app. split; [exact X4|]. constructor; [intros []|constructor].
Qed.

Definition dd (s : String.string) : dec := Dec false (text_of s) None.
Definition ex_M : list (list dec) := [[dd "0"; Dec false (text_of "2") (Some (text_of "50"))]; [dd "10"; dd "0"]].
Definition ex_f : list fdesc := [FDesc (text_of "age") (dd "1") (dd "1") (text_of "none") 0 3; FDesc (text_of "tsh") (dd "22") (Dec true (text_of "0") (Some (text_of "5"))) (text_of "blood") 4 4].
Definition ex_hdr : text := text_of "name cost discount group begin end".
Ltac words := repeat match goal with
  | |- spaced [] _ => apply sp_end; repeat constructor; try discriminate
  | |- spaced (?w :: _) _ => first [apply (sp_word [] w) | apply (sp_word [" "%char] w)]; [repeat constructor; discriminate | split; [discriminate | repeat constructor] | reflexivity || exact I | ]
  end.
Example C91_ex : written_costs ex_M ex_f [text_of "0 2.50"; text_of "10 0 "] ex_hdr [text_of "age 1 1 none 0 3"; text_of "tsh 22 -0.5 blood 4 4"]
  /\ read_costs 2 (file_of true ([text_of "0 2.50"; text_of "10 0 "] ++ ex_hdr :: [text_of "age 1 1 none 0 3"; text_of "tsh 22 -0.5 blood 4 4"]))
     = ([[Some (0 # 1); Some (250 # 100)]; [Some (10 # 1); Some (0 # 1)]]%Q, [FLine (Some 1%Q) (Some 1%Q) (text_of "none") (Some 0%Z) (Some 3%Z); FLine (Some 22%Q) (Some (-5 # 10)%Q) (text_of "blood") (Some 4%Z) (Some 4%Z)]).
Proof.
  split; [|vm_compute; reflexivity]. split; [repeat constructor; discriminate|]. split; [|split].
  - constructor; [|constructor; [|constructor]]; cbn; words.
  - intro I. cbn in I. repeat (destruct I as [I|I]; [discriminate|]). exact I.
  - constructor; [|constructor; [|constructor]]; (split; [split; [discriminate|repeat constructor]|]; split; [repeat constructor; discriminate|]; split; [repeat constructor; discriminate|]; split; [split; [discriminate|repeat constructor]|]).
    + exists (text_of "0"), (text_of "3"). split; [repeat split; [discriminate|repeat constructor]|]. split; [repeat split; [discriminate|repeat constructor]|]. cbn; words.
    + exists (text_of "4"), (text_of "4"). split; [repeat split; [discriminate|repeat constructor]|]. split; [repeat split; [discriminate|repeat constructor]|]. cbn; words.
Qed.

(** * C92 *)
Lemma charge_loop_in tbl n f : forall b, List.length tbl = n * n -> f < n -> Forall (fun c => c / 2 < n) b ->
  charge_loop tbl n f b = Some (existsb (fun c => nth (c / 2 * n + f) tbl false) b).
Proof.
  induction b as [|c b IH]; intros L F B; [reflexivity|]. inversion_clear B as [|? ? Bc B']. cbn [charge_loop existsb].
  assert (X : c / 2 * n + f < List.length tbl) by (rewrite L; nia). rewrite (nth_error_nth' tbl false X). destruct (nth (c / 2 * n + f) tbl false); [reflexivity|]. apply IH; assumption.
Qed.
(** Specifications that cover the features of the data: no read is outside the tables. *)
Theorem C92_inside : forall specs b f, divides specs -> f < num_binary specs -> Forall (fun c => c / 2 < num_binary specs) b ->
  charge_read (initialize specs) b f = Some (charge (initialize specs) b f).
Proof.
  intros specs b f Hd Hf Hb. destruct (tables_inv specs Hd) as [m [(L1 & L2 & L3 & L4) _ _ _ _]]. cbn [fst] in *.
  pose proof (tables_n specs Hd) as N. unfold charge_read, charge, same_bin, same_group. rewrite N.
  rewrite !(charge_loop_in _ _ f b) by assumption. destruct (existsb _ b); [reflexivity|]. destruct (existsb _ b); apply nth_error_nth'; lia.
Qed.
(** Specifications of fewer features than the data: not refused, and the root's test on a feature
    behind them reads behind the table. *)
Theorem C92_outside_refuted : forall specs f, divides specs -> num_binary specs <= f -> charge_read (initialize specs) [] f = None.
Proof.
  intros specs f Hd Hf. pose proof (tables_n specs Hd) as N. unfold charge_read. cbn [charge_loop]. apply nth_error_None. unfold num_features in N. lia.
Qed.
Example C92_ex : divides bill_specs /\ num_binary bill_specs = 4 /\ charge_read (initialize bill_specs) [1; 6] 2 = Some 1%Z /\ charge_read (initialize bill_specs) [] 4 = None.
Proof. destruct C84_test_costs_ex as (H1 & _). destruct (ku_specs _ _ _ _ _ _ H1) as [Hd _]. split; [exact Hd|]. vm_compute. auto. Qed.

Print Assumptions C90_rank.
Print Assumptions C90_at_most_one_partial.
Print Assumptions C90_one_class_refuted.
Print Assumptions C91_read.
Print Assumptions C91_lines_refuted.
Print Assumptions C92_inside.
Print Assumptions C92_outside_refuted.
