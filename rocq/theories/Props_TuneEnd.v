(** C101: the node cost that is used in the fit after tuning. *)
From Coq Require Import List Arith Bool Lia ZArith QArith Qround Lqa Permutation Sorting.Sorted.
From Verif Require Import Base_Q Model_FeatureVector Model_Data Proofs_Feature Model_Preproc Model_Solver Model_Regression Model_RegFit Model_SimpleLinear Model_TuneEnd
  Props_Regression.
Import ListNotations.
Local Open Scope nat_scope.

(** * Comparing views *)
Lemma same_ids_iff a : forall b, same_ids a b = true <-> a = b.
Proof.
  induction a as [|x a IH]; intros [|y b]; cbn; try (split; [discriminate|discriminate]); [tauto|]. rewrite andb_true_iff, Nat.eqb_eq, IH. split; [intros [-> ->]; reflexivity|intros [= -> ->]; auto].
Qed.
Lemma same_view_iff a b : same_view a b = true <-> a = b /\ a <> [].
Proof.
  unfold same_view. rewrite !andb_true_iff, same_ids_iff, !Nat.ltb_lt. split.
  - intros [[A B] ->]. split; [reflexivity|]. intros ->. cbn in A. lia.
  - intros [-> N]. destruct b; [congruence|]. cbn. repeat split; lia.
Qed.
Section Generic.
  Context {D : Type} (ident : D -> nat) (prep : list D -> list D) (cost : Q -> list D -> Q).
  (** The first step of a fit always prepares the data. *)
  Lemma first_step cc v : initialize ident prep cost cc false v fresh = St v (prep v) (cost cc v).
  Proof. reflexivity. Qed.
  Lemma tuned_cases cc0 cc1 v : tuned ident prep cost cc0 cc1 v =
    if same_view (map ident v) (map ident (prep v)) then St v (prep v) (cost cc0 v) else St (prep v) (prep (prep v)) (cost cc1 (prep v)).
  Proof. unfold tuned. rewrite first_step. cbn [s_train]. unfold initialize. cbn [s_org negb andb]. reflexivity. Qed.
End Generic.

(** * Piecewise linear regression *)
Definition targets (v : list gitem) : list Q := map (fun i => fst (snd i)) v.
Lemma g_cost_spread cc v : v <> [] -> (g_node_cost cc v == cc * sse (targets v) (mean (targets v)))%Q.
Proof.
  intros N. unfold g_node_cost. rewrite (fold_sum (fun i : gitem => fst (snd i))), (fold_sum (fun i : gitem => fst (snd i) * fst (snd i))%Q).
  assert (T : targets v <> []) by (destruct v; [congruence|discriminate]). pose proof (C39_leaf _ T) as (_ & E & _). rewrite <- E. destruct (leaf_value (targets v)) as [_ L]. rewrite L.
  assert (A : forall f l, (sumQ f (targets l) == sumQ (fun i : gitem => f (fst (snd i))) l)%Q) by (intros f l; induction l as [|x l IH]; cbn [sumQ targets map]; [reflexivity|]; fold (targets l); rewrite IH; reflexivity).
  rewrite !A. unfold targets at 1. rewrite map_length, !Qplus_0_l. reflexivity.
Qed.
(** Whatever the tuning chose: the last fit works with the node cost of the parameter that was set
    before the tuning. *)
Theorem C101_linear_refuted norm v cc0 cc1 : v <> [] -> (s_cost (g_tuned norm cc0 cc1 v) == cc0 * sse (targets v) (mean (targets v)))%Q.
Proof.
  intros N. unfold g_tuned. rewrite tuned_cases. assert (S : same_view (map fst v) (map fst (g_prep norm v)) = true).
  { apply same_view_iff. split; [|destruct v; [congruence|discriminate]]. unfold g_prep. rewrite map_map. cbn [fst]. reflexivity. }
  rewrite S. cbn [s_cost]. apply g_cost_spread. exact N.
Qed.
(** So two runs that differ in the tuned parameter only are the same, while the cost of the chosen
    parameter is another one. *)
Example C101_linear_case : let v := [(0%nat, (1, [3])); (1%nat, (2, [5])); (2%nat, (6, [4]))]%Q in
  (s_cost (g_tuned (fun _ x => x) (1 # 100) (1 # 10) v) == 14 # 100)%Q /\ (g_node_cost (1 # 10) v == 14 # 10)%Q.
Proof. cbn zeta. split; vm_compute; reflexivity. Qed.

(** * Cost-complex accuracy *)
(** The node cost of the last fit is the one of the tuned parameter. *)
Theorem C101_accuracy cc0 cc1 v : (cca_tuned_cost cc0 cc1 v == cc1 * qn (length v))%Q.
Proof. unfold cca_tuned_cost. rewrite tuned_cases. destruct (same_view _ _); cbn [s_train]; reflexivity. Qed.

(** * Cost-complex regression *)
Definition rid (i : ritem) : nat := iid (r_x i).
(** Neighbours have different features. *)
Fixpoint no_twins (l : list ritem) : Prop := match l with a :: ((b :: _) as l') => r_uid a <> r_uid b /\ no_twins l' | _ => True end.
Lemma id_insert_sorted x l : Sorted le (map rid l) -> Sorted le (map rid (id_insert x l)).
Proof.
  induction l as [|y l IH]; cbn [id_insert map]; intros S; [repeat constructor|]. inversion S as [|? ? S' H]; subst. fold (rid x) (rid y). destruct (rid x <? rid y) eqn:L.
  - apply Nat.ltb_lt in L. cbn [map]. constructor; [exact S|]. constructor. lia.
  - apply Nat.ltb_ge in L. cbn [map]. constructor; [apply IH, S'|]. destruct l as [|z l]; cbn [id_insert map]; [constructor; lia|]. fold (rid x) (rid z). destruct (rid x <? rid z); constructor; [lia|]. inversion H; subst. assumption.
Qed.
Lemma id_sort_sorted l : Sorted le (map rid (id_sort l)).
Proof. induction l as [|x l IH]; cbn [id_sort fold_right map]; [constructor|]. apply id_insert_sorted, IH. Qed.
Lemma sorted_lt l : Sorted le l -> NoDup l -> StronglySorted lt l.
Proof.
  intros S N. apply Sorted_StronglySorted in S; [|intros a b c; lia]. induction S as [|a l S IH F]; [constructor|]. inversion N as [|? ? A N']; subst. constructor; [apply IH, N'|].
  rewrite Forall_forall in *. intros x X. specialize (F x X). assert (x <> a) by (intros ->; auto). lia.
Qed.
Lemma id_sort_id l : StronglySorted lt (map rid l) -> id_sort l = l.
Proof.
  induction l as [|x l IH]; intros S; [reflexivity|]. cbn [map] in S. inversion S as [|? ? S' F]; subst. cbn [id_sort fold_right]. fold (id_sort l). rewrite (IH S'). destruct l as [|y l]; [reflexivity|].
  cbn [id_insert]. inversion F; subst. fold (rid x) (rid y). destruct (Nat.ltb_spec (rid x) (rid y)); [reflexivity|lia].
Qed.
(** Putting together: first in its group, number of items. *)
Lemma group_shape rest : forall cur y q n w, exists a l, cc_group cur y q n w rest = a :: l /\ rid a = rid cur /\ r_uid a = r_uid cur.
Proof.
  induction rest as [|c rest IH]; intros cur y q n w; cbn [cc_group]; [do 2 eexists; repeat split|]. destruct (_ =? _); [apply IH|]. do 2 eexists. split; [reflexivity|]. unfold close_item. destruct (_ <? _); auto.
Qed.
Lemma group_length rest : forall cur y q n w, length (cc_group cur y q n w rest) <= S (length rest).
Proof. induction rest as [|c rest IH]; intros cur y q n w; cbn [cc_group]; [cbn; lia|]. destruct (_ =? _); cbn [length]; [specialize (IH cur (y + r_y c)%Q (q + r_q c)%Q (n + r_w c) (r_w c)); lia|]. specialize (IH c (r_y c) (r_q c) (r_w c) (r_w c)). lia. Qed.
Lemma group_full rest : forall cur y q n w, length (cc_group cur y q n w rest) = S (length rest) -> no_twins (cur :: rest).
Proof.
  induction rest as [|c rest IH]; intros cur y q n w; cbn [cc_group]; [cbn; auto|]. destruct (r_uid cur =? r_uid c) eqn:U.
  - intros L. pose proof (group_length rest cur (y + r_y c)%Q (q + r_q c)%Q (n + r_w c) (r_w c)). cbn [length] in L. lia.
  - apply Nat.eqb_neq in U. intros L. split; [exact U|]. eapply IH. cbn [length] in L. injection L as L. exact L.
Qed.
Lemma group_same rest : forall c, no_twins (c :: rest) -> cc_group c (r_y c) (r_q c) (r_w c) (r_w c) rest = c :: rest.
Proof.
  induction rest as [|d rest IH]; intros c T; cbn [cc_group]; [destruct c; reflexivity|]. destruct T as [U T]. apply Nat.eqb_neq in U. rewrite U. unfold close_item. rewrite Nat.ltb_irrefl. f_equal. apply IH, T.
Qed.
Lemma group_twins rest : forall cur y q n w, no_twins (cc_group cur y q n w rest).
Proof.
  induction rest as [|c rest IH]; intros cur y q n w; cbn [cc_group]; [exact I|]. destruct (r_uid cur =? r_uid c) eqn:U; [apply IH|]. apply Nat.eqb_neq in U.
  specialize (IH c (r_y c) (r_q c) (r_w c) (r_w c)). destruct (group_shape rest c (r_y c) (r_q c) (r_w c) (r_w c)) as (a & l & E & _ & V). rewrite E in *. split; [|exact IH]. unfold close_item. destruct (_ <? _); cbn; congruence.
Qed.
Lemma group_sorted rest : forall cur y q n w, StronglySorted lt (map rid (cur :: rest)) -> StronglySorted lt (map rid (cc_group cur y q n w rest)) /\ Forall (le (rid cur)) (map rid (cc_group cur y q n w rest)).
Proof.
  induction rest as [|c rest IH]; intros cur y q n w S; cbn [cc_group].
  - cbn [map]. split; [constructor; constructor|]. constructor; [apply Nat.le_refl|constructor].
  - cbn [map] in S. inversion S as [|? ? S' F]; subst. inversion F as [|? ? L F']; subst. destruct (_ =? _).
    + apply IH. cbn [map]. inversion S'; subst. constructor; [assumption|exact F'].
    + destruct (IH c (r_y c) (r_q c) (r_w c) (r_w c)) as [A B]; [exact S'|]. assert (E : rid (close_item cur y q n w) = rid cur) by (unfold close_item; destruct (_ <? _); reflexivity). cbn [map]. rewrite E.
      assert (G : Forall (lt (rid cur)) (map rid (cc_group c (r_y c) (r_q c) (r_w c) (r_w c) rest))) by (rewrite Forall_forall in *; intros x X; specialize (B x X); lia).
      split; [constructor; assumption|]. constructor; [lia|]. rewrite Forall_forall in *. intros x X. specialize (G x X). lia.
Qed.
(** The sums stay. *)
Lemma group_sums rest : forall cur y q n w, 0 < n -> Forall item_ok rest -> ((w <? n) = false -> (y == r_y cur /\ q == r_q cur)%Q) ->
  (sumQ r_y (cc_group cur y q n w rest) == y + sumQ r_y rest /\ sumQ r_q (cc_group cur y q n w rest) == q + sumQ r_q rest)%Q.
Proof.
  induction rest as [|c rest IH]; intros cur y q n w N OK S; cbn [cc_group sumQ]; [cbn [r_y r_q]; split; reflexivity|]. inversion OK as [|? ? [W B] OK']; subst. destruct (_ =? _).
  - destruct (IH cur (y + r_y c)%Q (q + r_q c)%Q (n + r_w c) (r_w c)) as [A C]; [lia|exact OK'|intros L; apply Nat.ltb_ge in L; lia|]. rewrite A, C. split; ring.
  - destruct (IH c (r_y c) (r_q c) (r_w c) (r_w c)) as [A C]; [exact W|exact OK'|split; reflexivity|]. cbn [sumQ]. rewrite A, C. unfold close_item. destruct (w <? n); cbn [r_y r_q]; [split; ring|]. destruct (S eq_refl) as [E F]. rewrite <- E, <- F. split; ring.
Qed.
Lemma err_sums xs : (item_err xs == sumQ r_q xs - sumQ r_y xs * sumQ r_y xs / qn (weight xs))%Q.
Proof. unfold item_err. destruct (cc_sums_eq xs) as [[A B] C]. destruct (cc_sums xs) as [[y q] w]. cbn [fst snd] in *. rewrite A, B, C. reflexivity. Qed.
Lemma err_perm a b : Permutation a b -> (item_err a == item_err b)%Q.
Proof. intros P. rewrite !err_sums, !(sumQ_perm _ _ _ P), (weight_perm _ _ P). reflexivity. Qed.
Section View.
  Variable v : list ritem.
  Hypothesis NE : v <> [].
  Hypothesis ND : NoDup (map rid v).
  Hypothesis OK : Forall item_ok v.
  Lemma srt : StronglySorted lt (map rid (id_sort v)).
  Proof. apply sorted_lt; [apply id_sort_sorted|]. eapply Permutation_NoDup; [apply Permutation_map, Permutation_sym, id_sort_perm|exact ND]. Qed.
  Lemma prep_shape : exists c rest, id_sort v = c :: rest /\ cc_prep v = cc_group c (r_y c) (r_q c) (r_w c) (r_w c) rest /\ item_ok c /\ Forall item_ok rest.
  Proof.
    unfold cc_prep, cc_merge. pose proof (id_sort_perm v) as P. destruct (id_sort v) as [|c rest] eqn:E; [apply Permutation_nil in P; congruence|]. exists c, rest. repeat split; try reflexivity.
    1,2: apply (proj1 (Forall_forall _ _) OK c), (Permutation_in c P); now left.
    apply Forall_forall. intros i I. apply (proj1 (Forall_forall _ _) OK i), (Permutation_in i P). now right.
  Qed.
  Lemma prep_err : (item_err (cc_prep v) == item_err v)%Q.
  Proof.
    destruct prep_shape as (c & rest & E & M & [W B] & F). rewrite M, err_sums. destruct (group_sums rest c (r_y c) (r_q c) (r_w c) (r_w c)) as [A C]; [exact W|exact F|split; reflexivity|].
    rewrite A, C, group_weight by (try assumption; reflexivity). rewrite <- (err_perm _ _ (id_sort_perm v)), E, err_sums. reflexivity.
  Qed.
  Lemma prep_sorted : StronglySorted lt (map rid (cc_prep v)) /\ no_twins (cc_prep v) /\ cc_prep v <> [].
  Proof.
    destruct prep_shape as (c & rest & E & M & _ & _). rewrite M. split; [|split; [apply group_twins|]].
    - apply group_sorted. rewrite <- E. exact srt.
    - destruct (group_shape rest c (r_y c) (r_q c) (r_w c) (r_w c)) as (a & l & G & _). rewrite G. discriminate.
  Qed.
  Lemma prep_prep : cc_prep (cc_prep v) = cc_prep v.
  Proof.
    destruct prep_sorted as (S & T & N). unfold cc_prep at 1, cc_merge. rewrite (id_sort_id _ S). destruct (cc_prep v) as [|c rest]; [congruence|]. apply group_same, T.
  Qed.
  Lemma same_iff : same_view (map rid v) (map rid (cc_prep v)) = true <-> StronglySorted lt (map rid v) /\ no_twins v.
  Proof.
    rewrite same_view_iff. split.
    - intros [E _]. assert (S : StronglySorted lt (map rid v)) by (rewrite E; apply prep_sorted). split; [exact S|]. destruct prep_shape as (c & rest & F & M & _). rewrite (id_sort_id _ S) in F. apply (f_equal (@length nat)) in E. rewrite !map_length, M, F in E. rewrite F.
      eapply group_full. symmetry. exact E.
    - intros [S T]. split; [|intros E; apply map_eq_nil in E; congruence]. destruct prep_shape as (c & rest & F & M & _). rewrite (id_sort_id _ S) in F. rewrite M. rewrite F in T |- *. rewrite group_same by exact T. reflexivity.
  Qed.
  (** The last fit has the items of the first preparation; its node cost is the one of the first
      parameter when the data are listed in the order of the identifiers with no two neighbours of
      the same features, and otherwise the one of the tuned parameter. *)
  Lemma view_cost cc0 cc1 : s_train (cc_tuned cc0 cc1 v) = cc_prep v /\
    (StronglySorted lt (map rid v) /\ no_twins v -> (s_cost (cc_tuned cc0 cc1 v) == cc0 * item_err v)%Q) /\
    (~ (StronglySorted lt (map rid v) /\ no_twins v) -> (s_cost (cc_tuned cc0 cc1 v) == cc1 * item_err v)%Q).
  Proof.
    unfold cc_tuned. rewrite tuned_cases. change (fun i => iid (r_x i)) with rid. pose proof same_iff as SI. destruct (same_view _ _); cbn [s_train s_cost].
    - split; [reflexivity|]. split; [|intros H; exfalso; apply H, SI; reflexivity]. intros _. unfold cc_node_cost. rewrite (err_perm _ _ (id_sort_perm v)). reflexivity.
    - split; [apply prep_prep|]. split; [intros H; apply SI in H; discriminate|]. intros _. unfold cc_node_cost. rewrite (err_perm _ _ (id_sort_perm (cc_prep v))), prep_err. reflexivity.
  Qed.
End View.

(** ** From the rows *)
(** Rows in strictly descending order of their features (true before false, first feature
    first): no row is repeated. *)
Fixpoint descending (rows : list (inst * Q)) : bool :=
  match rows with a :: ((b :: _) as rows') => fv_gt (ifv (fst a)) (ifv (fst b)) && descending rows' | _ => true end.
(** Rows as the estimators pass them: numbered, with the same features. *)
Definition proper (nf : nat) (rows : list (inst * Q)) : Prop :=
  rows <> [] /\ NoDup (map (fun r => iid (fst r)) rows) /\ Forall (fun r => fv_ok (ifv (fst r)) /\ length (fv_bits (ifv (fst r))) = nf) rows.
Lemma bits_gt_total a : forall b, length a = length b -> bits_gt a b = true \/ bits_gt b a = true \/ a = b.
Proof.
  induction a as [|x a IH]; intros [|y b] L; try discriminate; [auto|]. injection L as L. cbn. destruct x, y; cbn; auto. all: destruct (IH b L) as [H|[H| ->]]; auto.
Qed.
Lemma bits_gt_irrefl a : bits_gt a a = false.
Proof. induction a as [|[] a IH]; cbn; auto. Qed.
Lemma bits_gt_asym a : forall b, bits_gt a b = true -> bits_gt b a = false.
Proof. induction a as [|x a IH]; intros [|y b]; cbn; auto. destruct x, y; cbn; auto; discriminate. Qed.
Lemma present_bits u w : fv_ok u -> fv_ok w -> length (fv_bits u) = length (fv_bits w) -> fv_present u = fv_present w -> fv_bits u = fv_bits w.
Proof.
  intros [_ U] [_ V] L E. apply (nth_ext _ _ false false L). intros n N. apply eq_true_iff_eq. specialize (U n). specialize (V n). unfold fv_has, fv_num in *. rewrite E in U. rewrite L in U. assert (N2 : n < length (fv_bits w)) by lia. assert (In n (fv_present w) <-> nth n (fv_bits u) false = true) by tauto. tauto.
Qed.
Lemma bits_present u w : fv_ok u -> fv_ok w -> fv_bits u = fv_bits w -> fv_present u = fv_present w.
Proof. intros [A U] [B V] E. apply sorted_lt_ext; [exact A|exact B|]. intros x. rewrite U, V. unfold fv_num, fv_has. rewrite E. reflexivity. Qed.
Lemma reg_sort_id rows : descending rows = true -> reg_sort rows = rows.
Proof.
  induction rows as [|a rows IH]; [reflexivity|]. intros D. cbn [reg_sort fold_right]. fold (reg_sort rows). destruct rows as [|b rows]; [reflexivity|]. change (fv_gt (ifv (fst a)) (ifv (fst b)) && descending (b :: rows) = true) in D. apply andb_true_iff in D. destruct D as [G D]. rewrite (IH D). cbn [reg_insert]. rewrite G. reflexivity.
Qed.
(** no element is followed by a greater one *)
Fixpoint falling (rows : list (inst * Q)) : Prop :=
  match rows with a :: ((b :: _) as rows') => fv_gt (ifv (fst b)) (ifv (fst a)) = false /\ falling rows' | _ => True end.
Lemma reg_insert_falling x l : falling l -> falling (reg_insert x l).
Proof.
  induction l as [|y l IH]; cbn [reg_insert]; intros F; [exact I|]. destruct (fv_gt (ifv (fst x)) (ifv (fst y))) eqn:G.
  - split; [|exact F]. apply bits_gt_asym, G.
  - destruct l as [|z l]; cbn [reg_insert] in *; [split; [exact G|exact I]|]. destruct F as [A F]. specialize (IH F). destruct (fv_gt (ifv (fst x)) (ifv (fst z))); split; assumption.
Qed.
Lemma reg_sort_falling l : falling (reg_sort l).
Proof. induction l as [|x l IH]; cbn [reg_sort fold_right]; [exact I|]. apply reg_insert_falling, IH. Qed.
Lemma number_ids rows : forall id uid prev, map rid (reg_number id uid prev rows) = seq id (length rows).
Proof. induction rows as [|[x w] rows IH]; intros id uid prev; cbn [reg_number length seq map]; [reflexivity|]. destruct prev as [p|]; [destruct (fv_equal _ _)|]; cbn [map]; f_equal; apply IH. Qed.
Definition differ (a b : inst * Q) : Prop := fv_equal (ifv (fst a)) (ifv (fst b)) = false.
Fixpoint differing (rows : list (inst * Q)) : Prop := match rows with a :: ((b :: _) as rows') => differ a b /\ differing rows' | _ => True end.
Lemma fv_equal_iff u w : fv_equal u w = true <-> fv_present u = fv_present w.
Proof. apply eqb_list. Qed.
(** twins among the items are rows with the same features *)
Lemma number_twins rows : forall id uid x0 w0 w1 p i0, fv_present (ifv p) = fv_present (ifv x0) -> r_uid i0 = uid -> no_twins (i0 :: reg_number id uid (Some p) rows) <-> differing ((x0, w0) :: rows) \/ (rows = [] /\ w1 = w1 :> Q).
Proof.
  induction rows as [|[x w] rows IH]; intros id uid x0 w0 w1 p i0 E U; cbn [reg_number no_twins differing]; [tauto|].
  destruct (fv_equal (ifv p) (ifv x)) eqn:F.
  - cbn [no_twins r_uid]. split; [intros [N _]; congruence|]. intros [[D _]|[N _]]; [|discriminate]. unfold differ in D. cbn [fst] in D. apply fv_equal_iff in F. rewrite E in F. apply fv_equal_iff in F. congruence.
  - set (j := RI (Inst id (ifv x)) (S uid) w (w * w)%Q 1). specialize (IH (S id) (S uid) x w w1 x j eq_refl eq_refl). split.
    + intros [_ T]. left. assert (D : differ (x0, w0) (x, w)). { unfold differ. cbn [fst]. destruct (fv_equal (ifv x0) (ifv x)) eqn:G; [|reflexivity]. apply fv_equal_iff in G. rewrite <- E in G. apply fv_equal_iff in G. congruence. }
      split; [exact D|]. apply IH in T. destruct T as [T|[-> _]]; [exact T|exact I].
    + intros [[_ D]|[N _]]; [|discriminate]. split; [unfold j; cbn [r_uid]; rewrite U; lia|]. apply IH. left. exact D.
Qed.
Lemma pre_twins rows : no_twins (reg_preprocess rows) <-> differing (reg_sort rows).
Proof.
  unfold reg_preprocess. destruct (reg_sort rows) as [|[x w] l]; [tauto|]. cbn [reg_number]. rewrite (number_twins l 1 0 x w 0%Q x) by reflexivity. split; [intros [H|[-> _]]; [exact H|exact I]|auto].
Qed.
Lemma place_nth ks : NoDup ks -> forall n, n < length ks -> place (nth n ks 0) ks = n.
Proof.
  induction ks as [|k ks IH]; intros N n L; cbn [length] in L; [lia|]. inversion N as [|? ? A N']; subst. destruct n as [|n]; cbn [nth place]; [rewrite Nat.eqb_refl; reflexivity|].
  destruct (Nat.eqb_spec k (nth n ks 0)) as [E|E]; [exfalso; apply A; rewrite E; apply nth_In; lia|]. rewrite IH by (try assumption; lia). reflexivity.
Qed.
Lemma place_inj ks a b : In a ks -> In b ks -> place a ks = place b ks -> a = b.
Proof.
  induction ks as [|k ks IH]; [intros []|]. intros A B. cbn [place]. destruct (Nat.eqb_spec k a) as [<-|NA], (Nat.eqb_spec k b) as [<-|NB]; try discriminate; [auto|].
  intros E. injection E as E. apply IH; [destruct A; [congruence|assumption]|destruct B; [congruence|assumption]|exact E].
Qed.
Lemma key_inj (rows : list (inst * Q)) a b : NoDup (map (fun r => iid (fst r)) rows) -> In a rows -> In b rows -> iid (fst a) = iid (fst b) -> a = b.
Proof.
  intros N A B X. induction rows as [|r rs IH]; [destruct A|]. inversion N as [|? ? M N']; subst. destruct A as [A|A], B as [B|B]; [congruence| | |apply IH; assumption].
  - exfalso. apply M. rewrite A, X. apply (in_map (fun p : inst * Q => iid (fst p))), B.
  - exfalso. apply M. rewrite B, <- X. apply (in_map (fun p : inst * Q => iid (fst p))), A.
Qed.
Section Rows.
  Variables (nf : nat) (rows : list (inst * Q)).
  Hypothesis PR : proper nf rows.
  Let keys : list nat := map (fun p : inst * Q => iid (fst p)) (reg_sort rows).
  Let look (r : inst * Q) : ritem := nth (place (iid (fst r)) keys) (reg_preprocess rows) no_item.
  Lemma keys_nodup : NoDup keys.
  Proof. destruct PR as (_ & N & _). eapply Permutation_NoDup; [apply Permutation_map, Permutation_sym, reg_sort_perm|exact N]. Qed.
  Lemma pre_len : length (reg_preprocess rows) = length (reg_sort rows).
  Proof. rewrite <- (map_length rid). unfold reg_preprocess. rewrite number_ids, seq_length. reflexivity. Qed.
  Lemma look_sorted : map look (reg_sort rows) = reg_preprocess rows.
  Proof.
    apply (nth_ext _ _ no_item no_item); [rewrite map_length; symmetry; apply pre_len|]. intros n L. rewrite map_length in L. rewrite (nth_indep _ no_item (look (Inst 0 (fv_make []), 0%Q))) by (rewrite map_length; exact L).
    rewrite map_nth. unfold look. f_equal. assert (K : iid (fst (nth n (reg_sort rows) (Inst 0 (fv_make []), 0%Q))) = nth n keys 0).
    { unfold keys. change 0 with ((fun p : inst * Q => iid (fst p)) (Inst 0 (fv_make []), 0%Q)) at 2. rewrite map_nth. reflexivity. }
    rewrite K. apply place_nth; [apply keys_nodup|]. unfold keys. rewrite map_length. exact L.
  Qed.
  Lemma view_perm : Permutation (row_view rows) (reg_preprocess rows).
  Proof. rewrite <- look_sorted. apply (Permutation_map look), Permutation_sym, reg_sort_perm. Qed.
  Lemma pre_ids : map rid (reg_preprocess rows) = seq 0 (length rows).
  Proof. unfold reg_preprocess. rewrite number_ids, (Permutation_length (reg_sort_perm rows)). reflexivity. Qed.
  Lemma view_nodup : NoDup (map rid (row_view rows)).
  Proof. eapply Permutation_NoDup; [apply Permutation_map, Permutation_sym, view_perm|]. rewrite pre_ids. apply seq_NoDup. Qed.
  Lemma view_ok : Forall item_ok (row_view rows).
  Proof.
    apply Forall_forall. intros i I. apply (items_fv rows i); [|apply (Permutation_in i view_perm I)]. destruct PR as (_ & _ & F). unfold rows_ok. rewrite Forall_forall in *. intros r R. apply F, R.
  Qed.
  Lemma view_ne : row_view rows <> [].
  Proof. destruct PR as (N & _). unfold row_view. intros E. apply map_eq_nil in E. congruence. Qed.
  Lemma sorted_seq l : forall k, StronglySorted lt l -> Permutation l (seq k (length l)) -> l = seq k (length l).
  Proof.
    induction l as [|x l IH]; intros k H P; [reflexivity|]. cbn [length seq] in *. inversion H as [|? ? H' F]; subst. assert (x = k).
    { assert (X : In x (k :: seq (S k) (length l))) by (apply (Permutation_in x P); now left). assert (K : In k (x :: l)) by (apply (Permutation_in k (Permutation_sym P)); now left).
      destruct X as [->|X]; [reflexivity|]. apply in_seq in X. destruct K as [->|K]; [lia|]. rewrite Forall_forall in F. specialize (F k K). lia. }
    subst x. f_equal. apply IH; [exact H'|]. eapply Permutation_cons_inv. exact P.
  Qed.
  Lemma listed_iff : StronglySorted lt (map rid (row_view rows)) /\ no_twins (row_view rows) <-> descending rows = true.
  Proof.
    split.
    - intros [S T]. assert (E : map rid (row_view rows) = map rid (reg_preprocess rows)).
      { rewrite pre_ids. pose proof (sorted_seq _ 0 S) as Q. rewrite map_length, (Permutation_length view_perm), pre_len, (Permutation_length (reg_sort_perm rows)) in Q. apply Q. rewrite <- pre_ids. apply Permutation_map, view_perm. }
      assert (RS : reg_sort rows = rows).
      { assert (LR : length rows = length (reg_sort rows)) by (symmetry; apply Permutation_length, reg_sort_perm). apply (nth_ext _ _ (Inst 0 (fv_make []), 0%Q) (Inst 0 (fv_make []), 0%Q)); [symmetry; exact LR|]. intros n L.
        set (d := (Inst 0 (fv_make []), 0%Q)). assert (A : In (nth n rows d) rows) by (apply nth_In; lia). assert (B : In (nth n (reg_sort rows) d) rows) by (apply (Permutation_in _ (reg_sort_perm rows)), nth_In; exact L).
        assert (K : forall r, In r rows -> In (iid (fst r)) keys) by (intros r R; unfold keys; apply (in_map (fun p : inst * Q => iid (fst p))), (Permutation_in r (Permutation_sym (reg_sort_perm rows))), R).
        assert (LK : forall r, In r rows -> rid (look r) = place (iid (fst r)) keys).
        { intros r R. unfold look. assert (P : place (iid (fst r)) keys < length keys).
          { specialize (K r R). clear -K. induction keys as [|k ks IH]; [destruct K|]. cbn [place length]. destruct (Nat.eqb_spec k (iid (fst r))); [lia|]. destruct K as [K|K]; [congruence|]. specialize (IH K). lia. }
          unfold keys in P at 2. rewrite map_length, <- LR in P. pose proof (f_equal (fun l => nth (place (iid (fst r)) keys) l (rid no_item)) pre_ids) as Q. cbn beta in Q. rewrite map_nth in Q. rewrite Q. rewrite (nth_indep _ _ 0) by (rewrite seq_length; exact P). rewrite seq_nth by exact P. reflexivity. }
        assert (X : rid (look (nth n rows d)) = rid (look (nth n (reg_sort rows) d))).
        { assert (Y : nth n (map rid (row_view rows)) (rid (look d)) = nth n (map rid (reg_preprocess rows)) (rid (look d))) by (rewrite E; reflexivity). rewrite <- look_sorted in Y. change (row_view rows) with (map look rows) in Y. rewrite !map_nth in Y. exact Y. }
        rewrite (LK _ A), (LK _ B) in X. apply place_inj in X; [|apply K, A|apply K, B].
        destruct PR as (_ & N & _). symmetry. apply (key_inj _ _ _ N A B X). }
      assert (T' : no_twins (reg_preprocess rows)).
      { assert (RV : row_view rows = reg_preprocess rows) by (rewrite <- look_sorted, RS; reflexivity). rewrite <- RV. exact T. }
      apply pre_twins in T'. pose proof (reg_sort_falling rows) as F. rewrite RS in *. destruct PR as (_ & _ & FO). clear -T' F FO. induction rows as [|a rs IH]; [reflexivity|]. destruct rs as [|b rs]; [reflexivity|]. change (fv_gt (ifv (fst a)) (ifv (fst b)) && descending (b :: rs) = true). destruct T' as [D T'], F as [G F]. inversion FO as [|? ? [OA LA] FO']; subst. rewrite IH by assumption. inversion FO' as [|? ? [OB LB] _]; subst. rewrite andb_true_r.
      destruct (bits_gt_total (fv_bits (ifv (fst a))) (fv_bits (ifv (fst b)))) as [H|[H|H]]; [congruence|exact H| |].
      + unfold fv_gt in G. congruence.
      + exfalso. unfold differ in D. assert (P : fv_present (ifv (fst a)) = fv_present (ifv (fst b))).
        { apply bits_present; assumption. }
        apply fv_equal_iff in P. congruence.
    - intros D. pose proof (reg_sort_id rows D) as RS. assert (RV : row_view rows = reg_preprocess rows) by (rewrite <- look_sorted, RS; reflexivity). rewrite RV. split.
      + rewrite pre_ids. clear. generalize 0. induction (length rows) as [|n IH]; intros k; cbn [seq]; [constructor|]. constructor; [apply IH|]. apply Forall_forall. intros x X. apply in_seq in X. lia.
      + apply pre_twins. rewrite RS. destruct PR as (_ & _ & FO). clear -D FO. induction rows as [|a rs IH]; [exact I|]. destruct rs as [|b rs]; [exact I|]. change (fv_gt (ifv (fst a)) (ifv (fst b)) && descending (b :: rs) = true) in D. apply andb_true_iff in D. destruct D as [G D]. inversion FO as [|? ? [OA LA] FO']; subst. split; [|apply IH; assumption]. inversion FO' as [|? ? [OB LB] _]; subst.
        unfold differ. destruct (fv_equal (ifv (fst a)) (ifv (fst b))) eqn:E; [|reflexivity]. apply fv_equal_iff in E. apply present_bits in E; [|assumption|assumption|congruence]. unfold fv_gt in G. rewrite E, bits_gt_irrefl in G. discriminate.
  Qed.
End Rows.

Lemma sums_rows rows : (sumQ r_y (reg_preprocess rows) == sumQ (fun v => v) (map snd rows) /\ sumQ r_q (reg_preprocess rows) == sumQ (fun v => v * v) (map snd rows))%Q /\ weight (reg_preprocess rows) = length rows.
Proof.
  pose proof (Permutation_map snd (reg_sort_perm rows)) as P. rewrite <- !(sumQ_perm _ _ _ P), <- (Permutation_length (reg_sort_perm rows)). unfold reg_preprocess. pose proof (number_rows (reg_sort rows) 0 0 None) as F. clear P.
  induction F as [|r j rs js (E & Y & Q & W) F [[A B] C]]; cbn [sumQ map length]; [repeat split|]. unfold weight in *. cbn [fold_right]. rewrite A, B, C, Y, Q, W. repeat split; reflexivity.
Qed.
Lemma err_rows rows : rows <> [] -> (item_err (reg_preprocess rows) == sse (map snd rows) (mean (map snd rows)))%Q.
Proof.
  intros N. assert (T : map snd rows <> []) by (destruct rows; [congruence|discriminate]). destruct (C39_leaf _ T) as (_ & E & _). rewrite <- E. destruct (leaf_value (map snd rows)) as [_ L]. rewrite L, err_sums. destruct (sums_rows rows) as [[A B] C]. rewrite A, B, C, map_length. reflexivity.
Qed.
(** The node cost of the last fit after tuning: the one of the tuned parameter, except when the
    rows come in strictly descending order of their features; then it is the one of the parameter
    before the tuning.  The spread of the targets: their squared distances from the mean. *)
Theorem C101_regression nf rows cc0 cc1 : proper nf rows ->
  (s_cost (cc_tuned cc0 cc1 (row_view rows)) == (if descending rows then cc0 else cc1) * sse (map snd rows) (mean (map snd rows)))%Q.
Proof.
  intros PR. destruct (view_cost (row_view rows) (view_ne nf rows PR) (view_nodup nf rows PR) (view_ok nf rows PR) cc0 cc1) as (_ & A & B). pose proof (listed_iff nf rows PR) as L.
  rewrite <- (err_rows rows) by apply PR. rewrite <- (err_perm _ _ (view_perm nf rows PR)). destruct (descending rows); [apply A, L; reflexivity|]. apply B. intros H. apply L in H. discriminate.
Qed.
Lemma id_sort_of_perm a b : Permutation a b -> NoDup (map rid a) -> id_sort a = id_sort b.
Proof.
  intros P N. assert (N' : NoDup (map rid b)) by (eapply Permutation_NoDup; [apply Permutation_map, P|exact N]). pose proof (srt a N) as SA. pose proof (srt b N') as SB. assert (Q : Permutation (id_sort a) (id_sort b)) by (rewrite !id_sort_perm; exact P).
  clear P N N'. revert SA SB Q. generalize (id_sort a) (id_sort b). clear a b. intros a. induction a as [|x a IH]; intros b SA SB Q; [apply Permutation_nil in Q; congruence|]. destruct b as [|y b]; [apply Permutation_sym, Permutation_nil in Q; discriminate|].
  cbn [map] in SA, SB. inversion SA as [|? ? SA' FA]; inversion SB as [|? ? SB' FB]; subst. rewrite Forall_forall in FA, FB. assert (E : x = y).
  { destruct (Permutation_in x Q (or_introl eq_refl)) as [E|E]; [auto|]. destruct (Permutation_in y (Permutation_sym Q) (or_introl eq_refl)) as [F|F]; [auto|]. pose proof (FA _ (in_map rid _ _ F)). pose proof (FB _ (in_map rid _ _ E)). lia. }
  subst y. f_equal. apply IH; [exact SA'|exact SB'|]. eapply Permutation_cons_inv. exact Q.
Qed.
Lemma reg_rows_ids rows : map (fun r => iid (fst r)) (Model_RegFit.reg_rows rows) = seq 0 (length rows).
Proof.
  unfold Model_RegFit.reg_rows. rewrite map_map. cbn [fst iid]. generalize 0. induction rows as [|r rows IH]; intros k; [reflexivity|]. cbn [length seq combine map fst]. f_equal. apply IH.
Qed.
Lemma reg_rows_proper nf rows : rows <> [] -> Forall (fun r => length (fst r) = nf) rows -> proper nf (Model_RegFit.reg_rows rows).
Proof.
  intros N F. split; [|split].
  - intros E. apply (f_equal (map (fun r => iid (fst r)))) in E. rewrite reg_rows_ids in E. destruct rows; [congruence|discriminate].
  - rewrite reg_rows_ids. apply seq_NoDup.
  - apply Forall_forall. intros r R. unfold Model_RegFit.reg_rows in R. apply in_map_iff in R. destruct R as ([k p] & <- & R). apply in_combine_r in R. rewrite Forall_forall in F. cbn [fst snd ifv]. split; [apply fv_make_ok|]. cbn. rewrite map_length. apply F, R.
Qed.
(** The whole last fit: it is the fit without tuning (the fit of C89) with that parameter. *)
Theorem C101_regression_fit nf rows W P clk lam0 lam1 : rows <> [] -> Forall (fun r => length (fst r) = nf) rows ->
  let lam := if descending (Model_RegFit.reg_rows rows) then lam0 else lam1 in
  state_fit (zfact (length rows) * Zpos (Qden lam)) (cc_tuned lam0 lam1 (row_view (Model_RegFit.reg_rows rows))) W P nf clk = fit_ccr lam W P nf clk rows.
Proof.
  intros N F lam. pose proof (reg_rows_proper nf rows N F) as PR. set (rr := Model_RegFit.reg_rows rows) in *.
  destruct (view_cost (row_view rr) (view_ne nf rr PR) (view_nodup nf rr PR) (view_ok nf rr PR) lam0 lam1) as (T & _). pose proof (C101_regression nf rr lam0 lam1 PR) as C. fold lam in C.
  unfold state_fit, fit_ccr. fold rr. assert (E : s_train (cc_tuned lam0 lam1 (row_view rr)) = ccr_items rows).
  { rewrite T. unfold ccr_items, cc_prep, cc_merge. fold rr. rewrite (id_sort_of_perm _ _ (view_perm nf rr PR) (view_nodup nf rr PR)). reflexivity. }
  rewrite E. f_equal. f_equal. apply Qfloor_comp. rewrite C, (err_rows rr) by apply PR. reflexivity.
Qed.
(** Rows in descending order: tuning chose a low node cost, under which the best tree has a test;
    the last fit still has the high cost from before, and returns a leaf. *)
Definition down : list (list nat * Z) := [([1; 1], 8%Z); ([1; 0], 7%Z); ([0; 1], 1%Z); ([0; 0], 0%Z)].
Theorem C101_regression_refuted : let W := Switches true false false false true false true false 1 in let P := Params 2 3 false 2147483647 in let clk := fun _ => true in
  exists lam0 lam1 t, rg_tree (state_fit (zfact 4 * Zpos (Qden lam0)) (cc_tuned lam0 lam1 (row_view (Model_RegFit.reg_rows down))) W P 2 clk) = Some (RLeaf t)
  /\ rg_tree (fit_ccr lam1 W P 2 clk down) = Some (RSplit 0 (RLeaf (1 # 2)) (RLeaf (15 # 2))).
Proof.
  cbv zeta. exists 1%Q, (1 # 10)%Q. eexists. split; vm_compute; reflexivity.
Qed.
(** The same rows in another order: the tuned cost is used. *)
Example C101_regression_case : let rows := rev down in descending (Model_RegFit.reg_rows rows) = false /\ descending (Model_RegFit.reg_rows down) = true
  /\ (s_cost (cc_tuned 1 (1 # 10) (row_view (Model_RegFit.reg_rows rows))) == 5)%Q /\ (s_cost (cc_tuned 1 (1 # 10) (row_view (Model_RegFit.reg_rows down))) == 50)%Q.
Proof. cbv zeta. repeat split; vm_compute; reflexivity. Qed.
(** * Simple piecewise linear regression *)
(** The same for rows in descending order: the data set keeps their order when it is sorted, no
    rows are put together, and the last fit has the node cost from before the tuning. *)
Fixpoint ldescending (rows : list lrow) : bool :=
  match rows with a :: ((b :: _) as rows') => fv_gt (ifv (fst a)) (ifv (fst b)) && ldescending rows' | _ => true end.
Definition ltargets (rows : list lrow) : list Q := map (fun r => fst (snd r)) rows.
Lemma row_sort_id rows : ldescending rows = true -> row_sort rows = rows.
Proof.
  induction rows as [|a rows IH]; [reflexivity|]. intros D. cbn [row_sort fold_right]. fold (row_sort rows). destruct rows as [|b rows]; [reflexivity|]. change (fv_gt (ifv (fst a)) (ifv (fst b)) && ldescending (b :: rows) = true) in D. apply andb_true_iff in D. destruct D as [G D]. rewrite (IH D). cbn [row_insert]. rewrite G. reflexivity.
Qed.
Definition lid (i : litem) : nat := iid (li_x i).
Lemma row_items_ids rows : forall k, map lid (row_items k rows) = seq k (length rows).
Proof. induction rows as [|r rows IH]; intros k; cbn [row_items map length seq]; [reflexivity|]. f_equal. apply IH. Qed.
Lemma lid_sort_seq l : forall k, map lid l = seq k (length l) -> lid_sort l = l.
Proof.
  induction l as [|x l IH]; intros k E; [reflexivity|]. cbn [map length seq] in E. injection E as E0 E. cbn [lid_sort fold_right]. fold (lid_sort l). rewrite (IH (S k) E). destruct l as [|y l]; [reflexivity|]. cbn [map length seq] in E. injection E as E1 _.
  cbn [lid_insert]. fold (lid x) (lid y). destruct (Nat.ltb_spec (lid x) (lid y)); [reflexivity|lia].
Qed.
Lemma sl_group_ids rows : forall cur k y q n w m prev, fv_ok (ifv prev) -> (forall r, In r rows -> fv_ok (ifv (fst r)) /\ length (fv_bits (ifv (fst r))) = length (fv_bits (ifv prev))) ->
  match rows with [] => True | b :: _ => fv_gt (ifv prev) (ifv (fst b)) = true end -> ldescending rows = true ->
  map lid (sl_group cur prev y q n w m (row_items k rows)) = lid cur :: seq k (length rows).
Proof.
  induction rows as [|b rows IH]; intros cur k y q n w m prev OP OK G D; cbn [row_items sl_group map length seq]; [reflexivity|].
  assert (NE : fv_equal (ifv prev) (ifv (li_x (row_item k b))) = false).
  { cbn [row_item li_x ifv]. destruct (fv_equal (ifv prev) (ifv (fst b))) eqn:E; [|reflexivity]. apply fv_equal_iff in E. destruct (OK b (or_introl eq_refl)) as [OB LB]. apply present_bits in E; [|assumption|assumption|congruence]. unfold fv_gt in G. rewrite E, bits_gt_irrefl in G. discriminate. }
  rewrite NE. cbn [map]. f_equal; [unfold sl_close; destruct (_ <? _); reflexivity|]. destruct (OK b (or_introl eq_refl)) as [OB LB].
  rewrite IH; [reflexivity|exact OB| | |].
  - intros r R. cbn [row_item li_x ifv]. destruct (OK r (or_intror R)) as [A B]. split; [exact A|congruence].
  - destruct rows as [|c rows]; [exact I|]. change (fv_gt (ifv (fst b)) (ifv (fst c)) && ldescending (c :: rows) = true) in D. apply andb_true_iff in D. cbn [row_item li_x ifv]. apply D.
  - destruct rows as [|c rows]; [reflexivity|]. change (fv_gt (ifv (fst b)) (ifv (fst c)) && ldescending (c :: rows) = true) in D. apply andb_true_iff in D. apply D.
Qed.
Lemma sl_sums rows : forall k, (sumQ li_y (row_items k rows) == sumQ (fun v => v) (ltargets rows) /\ sumQ li_q (row_items k rows) == sumQ (fun v => v * v) (ltargets rows))%Q /\ (forall a, fold_left (fun a i => a + li_w i) (row_items k rows) a = a + length rows).
Proof.
  induction rows as [|r rows IH]; intros k; cbn [row_items sumQ ltargets map length]; [split; [split; reflexivity|cbn; lia]|]. destruct (IH (S k)) as [[A B] C]. fold (ltargets rows). rewrite A, B. split; [split; reflexivity|]. intros a. cbn [fold_left]. rewrite C. cbn. lia.
Qed.
Theorem C101_simple_refuted nf rows cc0 cc1 : rows <> [] -> Forall (fun r : lrow => fv_ok (ifv (fst r)) /\ length (fv_bits (ifv (fst r))) = nf) rows -> ldescending rows = true ->
  (s_cost (sl_tuned cc0 cc1 (sl_preprocess rows)) == cc0 * sse (ltargets rows) (mean (ltargets rows)))%Q.
Proof.
  intros N F D. unfold sl_tuned. rewrite tuned_cases. change (fun i : litem => iid (li_x i)) with lid. unfold sl_preprocess. rewrite (row_sort_id rows D).
  assert (SI : lid_sort (row_items 0 rows) = row_items 0 rows).
  { apply (lid_sort_seq _ 0). rewrite row_items_ids. f_equal. rewrite <- (map_length lid), row_items_ids, seq_length. reflexivity. }
  assert (SV : same_view (map lid (row_items 0 rows)) (map lid (sl_prep (row_items 0 rows))) = true).
  { apply same_view_iff. rewrite row_items_ids. split; [|destruct rows; [congruence|discriminate]]. unfold sl_prep, sl_merge. rewrite SI. destruct rows as [|a rows]; [congruence|]. cbn [row_items]. inversion F as [|? ? [OA LA] F']; subst. rewrite sl_group_ids; [reflexivity|exact OA| | |].
    - intros r R. rewrite Forall_forall in F'. cbn [row_item li_x ifv]. apply F', R.
    - destruct rows as [|b rows]; [exact I|]. change (fv_gt (ifv (fst a)) (ifv (fst b)) && ldescending (b :: rows) = true) in D. apply andb_true_iff in D. apply D.
    - destruct rows as [|b rows]; [reflexivity|]. change (fv_gt (ifv (fst a)) (ifv (fst b)) && ldescending (b :: rows) = true) in D. apply andb_true_iff in D. apply D. }
  rewrite SV. cbn [s_cost]. unfold sl_node_cost, sl_branching, total_weight. rewrite SI. destruct (sl_sums rows 0) as [[A B] C]. rewrite !(fold_sum _ (row_items 0 rows)), A, B, C.
  assert (T : ltargets rows <> []) by (destruct rows; [congruence|discriminate]). destruct (C39_leaf _ T) as (_ & E & _). rewrite <- E. destruct (leaf_value (ltargets rows)) as [_ L]. rewrite L. assert (LT : length (ltargets rows) = length rows) by apply map_length. rewrite LT, !Qplus_0_l. reflexivity.
Qed.
Example C101_simple_case : let x b := Inst 0 (fv_make b) in let rows := [(x [true; false], (4, [1])); (x [false; true], (2, [3])); (x [false; false], (0, [5]))]%Q in
  ldescending rows = true /\ (s_cost (sl_tuned 1 (1 # 8) (sl_preprocess rows)) == 8)%Q /\ (s_cost (sl_tuned 1 (1 # 8) (rev (sl_preprocess rows))) == 1)%Q.
Proof. cbv zeta. repeat split; vm_compute; reflexivity. Qed.
Print Assumptions C101_simple_refuted.
Print Assumptions C101_linear_refuted.
Print Assumptions C101_accuracy.
Print Assumptions C101_regression.
Print Assumptions C101_regression_fit.
Print Assumptions C101_regression_refuted.
