(** C99: fits of survival trees. *)
From Coq Require Import List Arith Bool Lia ZArith QArith Qround Qminmax Qreals Reals Lra.
From Verif Require Import Base_Q Model_FeatureVector Model_Data Model_Node Model_Cache Model_Terminal Model_Heap Model_Solver Model_Preproc Model_Tasks Model_Survival Model_SurvLeaf Model_RegFit Model_LinFit Model_SurvFit
  Spec_Tree Spec_Rows Spec_Tasks Spec_Reg Proofs_View Proofs_Feature Proofs_Base Proofs_Preproc Proofs_Rows Proofs_RegFit Proofs_Custom Props_Costs Props_Survival Props_SurvLeaf.
Import ListNotations.
Local Open Scope nat_scope.

(** * Specification *)
(** A row as the proportional hazards model sees it: its answers to the questions, whether the event
    was observed, and the Nelson-Aalen baseline hazard at its time (the program adds 1e-6 to times). *)
Definition seen (rows : list surow) (r : surow) : frow :=
  (fun f => negb (nth f (fst r) 0 =? 0), (snd (snd r), Q2R (baseline (map snd rows) (fst (snd r) + (1 # 1000000))))).
Definition view_of (rows : list surow) : list frow := map (seen rows) rows.
Fixpoint sdepth (t : stree) : nat := match t with SLeaf _ => 0 | SNode _ l r => S (Nat.max (sdepth l) (sdepth r)) end.
Fixpoint snodes (t : stree) : nat := match t with SLeaf _ => 0 | SNode _ l r => S (snodes l + snodes r) end.
Fixpoint sfits (nf : nat) (t : stree) : Prop := match t with SLeaf _ => True | SNode f l r => f < nf /\ sfits nf l /\ sfits nf r end.
(** Every leaf receives at least [m] rows. *)
Fixpoint sleaves (m : nat) (rows : list frow) (t : stree) : Prop :=
  match t with
  | SLeaf _ => m <= length rows
  | SNode f l r => sleaves m (filter (fun x => negb (fst x f)) rows) l /\ sleaves m (filter (fun x => fst x f) rows) r
  end.
Definition surv_allowed (nf m d n : nat) (rows : list frow) (t : stree) : Prop := sfits nf t /\ sleaves m rows t /\ sdepth t <= d /\ snodes t <= n.
(** The number of leaves in which no event was observed. *)
Fixpoint quiet (rows : list frow) (t : stree) : nat :=
  match t with
  | SLeaf _ => if events (map snd rows) =? 0 then 1 else 0
  | SNode f l r => quiet (filter (fun x => negb (fst x f)) rows) l + quiet (filter (fun x => fst x f) rows) r
  end.

(** The numbers the program computes are close to the losses of the leaves: at most [eps] away per
    row. *)
Definition pick_rows (rows : list surow) (ids : list nat) : list hrow := map (fun i => snd (nth i (view_of rows) (fun _ => false, (false, 1%R)))) ids.
Definition computes (eps : Q) (calc : list nat -> Q) (rows : list surow) : Prop :=
  forall ids, ids <> [] -> ascending 0 (length rows) ids = true -> (Rabs (Q2R (calc ids) - sa_error (pick_rows rows ids)) <= Q2R eps * INR (length ids))%R.
(** Units in which these numbers are whole for the parts of the data chosen by the features. *)
Definition surv_units (S : Z) (calc : list nat -> Q) (rows : list surow) : Prop :=
  (0 < S)%Z /\ forall g : fvec -> bool, exists z, (inject_Z S * sv_cost (length rows) calc (map fst (filter (fun r : sv_row => g (ifv (fst r))) (sv_data rows))) == inject_Z z)%Q.
(** [nf] features, times from 0 on, settings of the search as in C98; [B] bounds the loss of a row with
    risk factor 1, and the total is below the upper bound and 2^1023. *)
Record surv_usable (S : Z) (eps B : Q) (calc : list nat -> Q) (W : switches) (P : params) (nf : nat) (rows : list surow) : Prop := SurvUsable {
  su_bits : Forall (fun r => length (fst r) = nf) rows;
  su_times : times_ok (map snd rows);
  su_leaf : 1 <= w_mls W <= length rows;
  su_nodes : p_all P = true \/ p_nodes P = 1 -> p_nodes P <= 2 ^ p_depth P - 1;
  su_search : w_lb W = false /\ w_term W = false;
  su_eps : (0 <= eps)%Q;
  su_calc : computes eps calc rows;
  su_row : (0 <= B)%Q /\ Forall (fun r => (row_loss 1 (snd r) <= Q2R B)%R) (view_of rows);
  su_most : (qn (length rows) * (B + eps) <= inject_Z (Z.min (upper_bound (p_ub P)) (2 ^ 1023)))%Q;
  su_units : surv_units S calc rows }.

(** * Rows of the user and of the model *)
Definition rel (x : sv_row) (u : frow) : Prop := (forall f, has f (fst x) = fst u f) /\ sv_hrow x = snd u.
Lemma f2_len {A B} (R : A -> B -> Prop) l l' : Forall2 R l l' -> length l = length l'.
Proof. induction 1; cbn; congruence. Qed.
Lemma f2_filter {A B} (R : A -> B -> Prop) (g : A -> bool) (h : B -> bool) l l' : Forall2 R l l' -> (forall x y, R x y -> g x = h y) -> Forall2 R (filter g l) (filter h l').
Proof. intros H E. induction H as [|x y l l' Hx _ IH]; cbn [filter]; [constructor|]. rewrite (E x y Hx). destruct (h y); [constructor|]; assumption. Qed.
Lemma rel_left f rs us : Forall2 rel rs us -> Forall2 rel (filter (fun x => negb (has f (fst x))) rs) (filter (fun x => negb (fst x f)) us).
Proof. intro H. apply (f2_filter rel _ _ _ _ H). intros x u [E _]. rewrite E. reflexivity. Qed.
Lemma rel_right f rs us : Forall2 rel rs us -> Forall2 rel (filter (fun x => has f (fst x)) rs) (filter (fun x => fst x f) us).
Proof. intro H. apply (f2_filter rel _ _ _ _ H). intros x u [E _]. apply E. Qed.
Lemma rel_hrows rs us : Forall2 rel rs us -> map sv_hrow rs = map snd us.
Proof. induction 1 as [|x u rs us [_ E] _ IH]; cbn [map]; congruence. Qed.
Lemma rel_data rows : times_ok (map snd rows) -> Forall2 rel (sv_data rows) (view_of rows).
Proof.
  intro OK. unfold sv_data, view_of. assert (G : forall l s, Forall2 rel (map (fun p : nat * surow => (Inst (fst p) (fv_make (map (fun k => negb (k =? 0)) (fst (snd p)))), (snd (snd (snd p)), hazard (map snd rows) (fst (snd (snd p))))) : sv_row) (combine (seq s (length l)) l)) (map (seen rows) l)); [|apply G].
  induction l as [|r l IH]; intro s; cbn [length seq combine map]; constructor; [|apply IH]. split.
  - intro f. cbn [fst snd seen]. unfold has. cbn [ifv]. unfold fv_has, fv_make. cbn [fv_bits]. change false with ((fun k => negb (k =? 0)) 0). rewrite map_nth. reflexivity.
  - unfold sv_hrow, seen. cbn [fst snd]. f_equal. apply Qeq_eqR. apply C38_value. exact OK.
Qed.
Lemma view_hazards rows : times_ok (map snd rows) -> hazards_ok (map snd (view_of rows)).
Proof.
  intro OK. unfold hazards_ok. rewrite Forall_map. unfold view_of. rewrite Forall_map. apply Forall_forall. intros r _. cbn [seen snd].
  replace 0%R with (Q2R 0) by (unfold Q2R; cbn; lra). apply Qlt_Rlt. rewrite <- C38_value by exact OK. apply C38_positive. exact OK.
Qed.
Lemma data_ids rows : map iid (map fst (sv_data rows)) = seq 0 (length rows).
Proof.
  unfold sv_data. assert (G : forall (l : list surow) s, map iid (map fst (map (fun p : nat * surow => (Inst (fst p) (fv_make (map (fun k => negb (k =? 0)) (fst (snd p)))), (snd (snd (snd p)), hazard (map snd rows) (fst (snd (snd p))))) : sv_row) (combine (seq s (length l)) l))) = seq s (length l)); [|apply G].
  induction l as [|u l IH]; intro s; cbn [length seq combine map]; [reflexivity|]. rewrite IH. reflexivity.
Qed.
Lemma data_len rows : length (sv_data rows) = length rows.
Proof. unfold sv_data. rewrite map_length, combine_length, seq_length. lia. Qed.
(** Parts of the data are in ascending order. *)
Lemma part_ascends g n (l : list sv_row) : forall s lo, lo <= s -> s + length l <= n -> map iid (map fst l) = seq s (length l) -> ascending lo n (map iid (map fst (filter g l))) = true.
Proof.
  induction l as [|x l IH]; intros s lo H1 H2 E; [reflexivity|]. cbn [map length seq] in *. injection E as E1 E2. cbn [filter]. destruct (g x).
  - cbn [map ascending]. rewrite E1, (IH (Datatypes.S s) (Datatypes.S s)) by (try exact E2; lia). rewrite (proj2 (Nat.leb_le lo s)), (proj2 (Nat.ltb_lt s n)) by lia. reflexivity.
  - apply (IH (Datatypes.S s)); try exact E2; lia.
Qed.
Lemma nth_part (rows : list surow) (d : sv_row) (u : frow) i rs us : Forall2 rel rs us -> i < length rows -> length rs = length rows -> sv_hrow (nth i rs d) = snd (nth i us u).
Proof. intros H Hi HL. rewrite <- HL in Hi. clear HL. revert i Hi. induction H as [|x y rs us [_ E] _ IH]; intros [|i] Hi; cbn [length nth] in *; try lia; [exact E|]. apply IH. lia. Qed.

(** * Numbers *)
Lemma Q2R_Z z : Q2R (inject_Z z) = IZR z.
Proof. unfold Q2R, inject_Z. cbn [Qnum Qden]. rewrite Rinv_1. ring. Qed.
Lemma Q2R_n k : Q2R (qn k) = INR k.
Proof. unfold qn. rewrite Q2R_Z, INR_IZR_INZ. reflexivity. Qed.
Lemma Q2R_0 : Q2R 0 = 0%R.
Proof. unfold Q2R. cbn. lra. Qed.
Lemma Q2R_max q : Q2R (Qmax 0 q) = Rmax 0 (Q2R q).
Proof.
  destruct (Qlt_le_dec 0 q) as [H|H].
  - apply Qlt_le_weak in H. rewrite (Qeq_eqR _ _ (Q.max_r _ _ H)). apply Qle_Rle in H. rewrite Q2R_0 in H. rewrite Rmax_right by exact H. reflexivity.
  - rewrite (Qeq_eqR _ _ (Q.max_l _ _ H)). apply Qle_Rle in H. rewrite Q2R_0 in *. rewrite Rmax_left by exact H. reflexivity.
Qed.

(** * Leaves *)
Lemma error_le rs th : hazards_ok rs -> rs <> [] -> (0 < th)%R -> (sa_error rs <= loss th rs)%R.
Proof.
  intros H N P. destruct (C59_leaf_optimal rs H N) as (t & v & L & _ & M & _). specialize (M th P). unfold sa_leaf in L. destruct (Rle_dec _ _); [|discriminate]. injection L as _ <-. pose proof (Rmax_l (sa_error rs) 0). pose proof (Rmax_r (sa_error rs) 0). pose proof (Rmax_l 0 (sa_error rs)). pose proof (Rmax_r 0 (sa_error rs)). lra.
Qed.
Lemma error_nonneg rs : hazards_ok rs -> rs <> [] -> (0 <= sa_error rs)%R.
Proof. intros H N. rewrite error_eq by exact H. destruct (events rs =? 0); [lra|]. apply loss_nonneg; [apply theta_pos; assumption|exact H]. Qed.
Lemma theta_loss rs : hazards_ok rs -> rs <> [] -> loss (sa_theta rs) rs = (sa_error rs + INR (if events rs =? 0 then 1 else 0) / 2)%R.
Proof.
  intros H N. rewrite error_eq by exact H. destruct (Nat.eqb_spec (events rs) 0) as [E|E]; [|cbn; lra].
  rewrite loss_sums by (try apply theta_pos; assumption). rewrite theta_eq, E. cbn [Nat.eqb INR]. pose proof (haz_pos rs H N).
  assert (Z : nlh rs = 0%R) by (unfold events in E; unfold nlh; clear -E; induction rs as [|[e h] rs IH]; [reflexivity|]; cbn [filter fst] in E; cbn [sumR fst]; destruct e; [discriminate|]; rewrite IH by exact E; lra).
  rewrite Z. field. lra.
Qed.
Lemma leaf_loss th (us : list frow) : tree_loss (SLeaf th) us = loss th (map snd us).
Proof. unfold tree_loss, loss. cbn [srisk]. induction us as [|x us IH]; cbn [sumR map]; [reflexivity|]. rewrite IH. reflexivity. Qed.
Lemma node_loss f l r us : tree_loss (SNode f l r) us = (tree_loss l (filter (fun x => negb (fst x f)) us) + tree_loss r (filter (fun x => fst x f) us))%R.
Proof.
  unfold tree_loss. rewrite (loss_split _ f us). f_equal; apply sumR_ext; intros x I; apply filter_In in I; cbn [srisk]; [destruct (fst x f); [destruct I; discriminate|reflexivity]|destruct I as [_ ->]; reflexivity].
Qed.

(** * Trees *)
Fixpoint sshape (t : stree) : tree := match t with SLeaf _ => Leaf 0 | SNode f l r => Split f (sshape l) (sshape r) end.
Lemma sshape_depth t : depth (sshape t) = sdepth t.
Proof. induction t; cbn; congruence. Qed.
Lemma sshape_nodes t : nodes (sshape t) = snodes t.
Proof. induction t; cbn; congruence. Qed.
Lemma sshape_fits nf t : fits (fun f => f < nf) 1 (sshape t) <-> sfits nf t.
Proof. induction t as [c|f l IHl r IHr]; cbn [sshape fits sfits]; [lia|]. rewrite IHl, IHr. reflexivity. Qed.
Lemma fill_depth t : forall rs, sdepth (sv_fill rs t) = depth t.
Proof. induction t as [l|f l IHl r IHr]; intro rs; cbn [sv_fill sdepth depth]; [reflexivity|]. rewrite IHl, IHr. reflexivity. Qed.
Lemma fill_nodes t : forall rs, snodes (sv_fill rs t) = nodes t.
Proof. induction t as [l|f l IHl r IHr]; intro rs; cbn [sv_fill snodes nodes]; [reflexivity|]. rewrite IHl, IHr. reflexivity. Qed.
Lemma fill_fits nf t : forall rs, fits (fun f => f < nf) 1 t -> sfits nf (sv_fill rs t).
Proof. induction t as [l|f l IHl r IHr]; intro rs; cbn [sv_fill sfits fits]; [trivial|]. intros (A & B & C). auto. Qed.
Lemma map_left f rs : filter (fun x => negb (has f x)) (map fst rs) = map fst (filter (fun x : sv_row => negb (has f (fst x))) rs).
Proof. rewrite filter_map_comm. reflexivity. Qed.
Lemma map_right f rs : filter (has f) (map fst rs) = map fst (filter (fun x : sv_row => has f (fst x)) rs).
Proof. rewrite filter_map_comm. reflexivity. Qed.
Lemma fill_leaves m t : forall rs us, Forall2 rel rs us -> leaves_ok m (map fst rs) t -> sleaves m us (sv_fill rs t).
Proof.
  induction t as [l|f l IHl r IHr]; intros rs us H; cbn [sv_fill sleaves leaves_ok]; [rewrite map_length; apply f2_len in H; unfold sv_row in *; lia|].
  rewrite map_left, map_right. intros [A B]. split; [apply IHl; [apply rel_left|]|apply IHr; [apply rel_right|]]; assumption.
Qed.
Lemma shape_leaves m t : forall rs us, Forall2 rel rs us -> sleaves m us t -> leaves_ok m (map fst rs) (sshape t).
Proof.
  induction t as [c|f l IHl r IHr]; intros rs us H; cbn [sshape sleaves leaves_ok]; [rewrite map_length; apply f2_len in H; unfold sv_row in *; lia|].
  rewrite map_left, map_right. intros [A B]. split; [eapply IHl; [apply rel_left; exact H|exact A]|eapply IHr; [apply rel_right; exact H|exact B]].
Qed.
Lemma leaves_more m t : forall L, 1 <= m -> leaves_ok m L t -> leaves_ok 1 L t.
Proof. induction t as [l|f l IHl r IHr]; intros L Hm; cbn [leaves_ok]; [lia|]. intros [A B]. auto. Qed.
Lemma sleaves_more m t : forall us, 1 <= m -> sleaves m us t -> sleaves 1 us t.
Proof. induction t as [l|f l IHl r IHr]; intros us Hm; cbn [sleaves]; [lia|]. intros [A B]. auto. Qed.
(** The sum of the least losses of the leaves. *)
Fixpoint least (us : list frow) (t : tree) : R :=
  match t with Leaf _ => sa_error (map snd us) | Split f l r => (least (filter (fun x => negb (fst x f)) us) l + least (filter (fun x => fst x f) us) r)%R end.
Lemma ne_map {A B} (f : A -> B) l : 1 <= length l -> map f l <> [].
Proof. destruct l; cbn; [lia|discriminate]. Qed.
Lemma fill_loss t : forall rs us, Forall2 rel rs us -> hazards_ok (map snd us) -> leaves_ok 1 (map fst rs) t ->
  tree_loss (sv_fill rs t) us = (least us t + INR (quiet us (sv_fill rs t)) / 2)%R /\ thetas_pos (sv_fill rs t) /\ sv_test rs (sv_fill rs t) = tree_loss (sv_fill rs t) us.
Proof.
  induction t as [l|f l IHl r IHr]; intros rs us H Hz; cbn [sv_fill least leaves_ok thetas_pos quiet sv_test].
  - rewrite map_length. intro L. assert (L' : 1 <= length us) by (rewrite <- (f2_len _ _ _ H); exact L). pose proof (ne_map snd us L') as N. rewrite (rel_hrows _ _ H), leaf_loss. pose proof (theta_pos _ Hz N) as TP. split; [apply theta_loss; assumption|]. split; [exact TP|]. rewrite costs_eq by assumption. reflexivity.
  - rewrite map_left, map_right. intros [A B]. destruct (IHl _ _ (rel_left f _ _ H) (hz_filter _ _ Hz) A) as (E1 & P1 & T1). destruct (IHr _ _ (rel_right f _ _ H) (hz_filter _ _ Hz) B) as (E2 & P2 & T2).
    rewrite node_loss, T1, T2. split; [rewrite E1, E2, plus_INR; lra|]. auto.
Qed.
Lemma shape_loss t : forall us, thetas_pos t -> hazards_ok (map snd us) -> sleaves 1 us t -> (least us (sshape t) <= tree_loss t us)%R.
Proof.
  induction t as [th|f l IHl r IHr]; intros us; cbn [thetas_pos sshape least sleaves].
  - intros P Hz L. rewrite leaf_loss. apply error_le; [exact Hz|apply ne_map; exact L|exact P].
  - intros [P1 P2] Hz [L1 L2]. rewrite node_loss. apply Rplus_le_compat; [apply IHl|apply IHr]; try assumption; apply hz_filter; exact Hz.
Qed.

(** * The computed losses *)
Lemma data_place rows r : In r (sv_data rows) -> iid (fst r) < length rows /\ forall d, nth (iid (fst r)) (sv_data rows) d = r.
Proof.
  intro H. pose proof (data_ids rows) as E. pose proof (data_len rows) as L. apply (In_nth _ _ r) in H. destruct H as (i & Hi & Hr).
  assert (X : iid (fst r) = i).
  { apply (f_equal (fun l => nth i l 0)) in E. rewrite seq_nth in E by lia. rewrite map_map in E. rewrite (nth_indep _ 0 ((fun x : sv_row => iid (fst x)) r)) in E by (rewrite map_length; exact Hi).
    pose proof (map_nth (fun x : sv_row => iid (fst x)) (sv_data rows) r i) as M. rewrite Hr in M. exact (eq_trans (eq_sym M) E). }
  rewrite X. split; [lia|]. intro d. rewrite (nth_indep _ d r) by exact Hi. exact Hr.
Qed.
Lemma pick_part rows rs us : times_ok (map snd rows) -> incl rs (sv_data rows) -> Forall2 rel rs us -> pick_rows rows (map iid (map fst rs)) = map snd us.
Proof.
  intros OK HI H. rewrite <- (rel_hrows _ _ H). unfold pick_rows. rewrite !map_map. apply map_ext_in. intros r Hr. destruct (data_place rows r (HI r Hr)) as [A B].
  rewrite <- (B r) at 2. symmetry. apply (nth_part rows); [apply rel_data; exact OK|exact A|apply data_len].
Qed.
Lemma ascend_lt n ids : forall lo, ascending lo n ids = true -> Forall (fun i => i < n) ids.
Proof. induction ids as [|i ids IH]; intros lo; cbn [ascending]; [constructor|]. rewrite !andb_true_iff, Nat.leb_le, Nat.ltb_lt. intros [[_ A] B]. constructor; [exact A|]. apply (IH _ B). Qed.
Lemma pick_hazards rows ids : times_ok (map snd rows) -> ascending 0 (length rows) ids = true -> hazards_ok (pick_rows rows ids).
Proof.
  intros OK H. apply ascend_lt in H. unfold hazards_ok, pick_rows. rewrite Forall_map. eapply Forall_impl; [|exact H]. intros i Hi. cbv beta. pose proof (view_hazards rows OK) as Z. unfold hazards_ok in Z. rewrite Forall_map, Forall_forall in Z. apply Z. apply nth_In. unfold view_of. rewrite map_length. exact Hi.
Qed.
Lemma pick_bound rows B ids : Forall (fun r => (row_loss 1 (snd r) <= B)%R) (view_of rows) -> Forall (fun i => i < length rows) ids -> (loss 1 (pick_rows rows ids) <= INR (length ids) * B)%R.
Proof.
  intros HB H. unfold loss, pick_rows. rewrite Forall_forall in HB. induction H as [|i ids Hi _ IH]; cbn [map sumR length]; [cbn; lra|]. rewrite S_INR.
  assert (X := HB (nth i (view_of rows) (fun _ => false, (false, 1%R)))). specialize (X ltac:(apply nth_In; unfold view_of; rewrite map_length; exact Hi)). lra.
Qed.
Lemma Rabs_le_between a b : (Rabs a <= b <-> - b <= a <= b)%R.
Proof. split; [unfold Rabs; destruct (Rcase_abs a); lra|apply Rabs_le]. Qed.
Lemma filter_two {A} (g h : A -> bool) l : filter h (filter g l) = filter (fun x => g x && h x) l.
Proof. induction l as [|x l IH]; [reflexivity|]. cbn [filter]. destruct (g x); cbn [filter andb]; [destruct (h x)|]; rewrite IH; reflexivity. Qed.
Section Close.
  Context (eps B : Q) (calc : list nat -> Q) (rows : list surow).
  Hypothesis OK : times_ok (map snd rows).
  Hypothesis HC : computes eps calc rows.
  Hypothesis HE : (0 <= eps)%Q.
  Hypothesis HB : (0 <= B)%Q /\ Forall (fun r => (row_loss 1 (snd r) <= Q2R B)%R) (view_of rows).
  Notation cost := (sv_cost (length rows) calc).
  Lemma cost_range L : (0 <= cost L <= qn (length L) * (B + eps))%Q.
  Proof.
    assert (Z : (0 <= qn (length L) * (B + eps))%Q).
    { apply Rle_Qle. rewrite Q2R_mult, Q2R_plus, Q2R_n, Q2R_0. destruct HB as [B0 _]. apply Qle_Rle in B0. apply Qle_Rle in HE. rewrite Q2R_0 in *. apply Rmult_le_pos; [apply pos_INR|lra]. }
    unfold sv_cost. destruct L as [|x L]; [split; [apply Qle_refl|exact Z]|]. set (L' := x :: L) in *. destruct (ascending 0 (length rows) (map iid L')) eqn:A; [|split; [apply Qle_refl|exact Z]].
    split; [apply Q.le_max_l|]. apply Rle_Qle. rewrite Q2R_max, Q2R_mult, Q2R_plus, Q2R_n. apply Rmax_lub; [apply Qle_Rle in Z; rewrite Q2R_0, Q2R_mult, Q2R_plus, Q2R_n in Z; exact Z|].
    pose proof (HC (map iid L') ltac:(discriminate) A) as C. pose proof (pick_hazards rows _ OK A) as Hz. pose proof (pick_bound rows (Q2R B) _ (proj2 HB) (ascend_lt _ _ _ A)) as PB.
    pose proof (error_le _ 1 Hz ltac:(discriminate) Rlt_0_1) as EL. rewrite map_length in *. apply Rabs_le_between in C. set (n := INR (length L')) in *. lra.
  Qed.
  Definition chosen (rs : list sv_row) : Prop := exists g, rs = filter g (sv_data rows).
  Lemma chosen_filter h rs : chosen rs -> chosen (filter h rs).
  Proof. intros (g & ->). exists (fun x => g x && h x). apply filter_two. Qed.
  Lemma leaf_close rs us : chosen rs -> Forall2 rel rs us -> 1 <= length rs -> (Rabs (Q2R (cost (map fst rs)) - sa_error (map snd us)) <= Q2R eps * INR (length rs))%R.
  Proof.
    intros (g & E) H L. assert (HI : incl rs (sv_data rows)) by (rewrite E; intros x Hx; apply filter_In in Hx; apply Hx).
    assert (A : ascending 0 (length rows) (map iid (map fst rs)) = true) by (rewrite E; apply (part_ascends g _ _ 0); [lia|rewrite data_len; lia|rewrite data_len; apply data_ids]).
    pose proof (pick_part rows rs us OK HI H) as PP. assert (NE : map iid (map fst rs) <> []) by (apply ne_map; rewrite map_length; exact L).
    pose proof (HC _ NE A) as C. rewrite PP, !map_length in C. pose proof (pick_hazards rows _ OK A) as Hz. rewrite PP in Hz.
    pose proof (error_nonneg _ Hz ltac:(apply ne_map; pose proof (f2_len _ _ _ H) as FL; change (1 <= @length frow us); lia)) as N.
    unfold sv_cost. destruct (map fst rs) eqn:M; [destruct (NE eq_refl)|]. rewrite A, Q2R_max. eapply Rle_trans; [|exact C]. clear C. clear -N. revert N. generalize (sa_error (map snd us)) as e. generalize (Q2R (calc (map iid (i :: l)))) as c. intros c e N.
    unfold Rmax. destruct (Rle_dec 0 c); [apply Rle_refl|]. rewrite !Rabs_left1 by lra. lra.
  Qed.
  Lemma tree_close t : forall rs us, chosen rs -> Forall2 rel rs us -> leaves_ok 1 (map fst rs) t -> (Rabs (Q2R (cerr cost (map fst rs) t) - least us t) <= Q2R eps * INR (length rs))%R.
  Proof.
    induction t as [l|f l IHl r IHr]; intros rs us HG H; cbn [cerr least leaves_ok].
    - rewrite map_length. intro L. apply leaf_close; assumption.
    - rewrite map_left, map_right. intros [L1 L2]. pose proof (IHl _ _ (chosen_filter _ _ HG) (rel_left f _ _ H) L1) as X1. pose proof (IHr _ _ (chosen_filter _ _ HG) (rel_right f _ _ H) L2) as X2.
      rewrite Q2R_plus. assert (E : length rs = length (filter (fun x : sv_row => negb (has f (fst x))) rs) + length (filter (fun x : sv_row => has f (fst x)) rs)) by (clear; induction rs as [|x rs IH]; [reflexivity|]; cbn [filter length]; destruct (has f (fst x)); cbn [negb length]; lia).
      rewrite E, plus_INR. apply Rabs_le_between in X1. apply Rabs_le_between in X2. apply Rabs_le_between. rewrite ?map_right. revert X1 X2. unfold sv_row. set (n1 := INR (length (filter (fun x : inst * (bool * Q) => negb (has f (fst x))) rs))). set (n2 := INR (length (filter (fun x : inst * (bool * Q) => has f (fst x)) rs))). intros. lra.
  Qed.
End Close.

(** Units exist. *)
Theorem C99_units : forall calc rows, exists S, surv_units S calc rows.
Proof.
  intros calc rows. exists (dens (map (fun rs => sv_cost (length rows) calc (map fst rs)) (parts (sv_data rows)))). split; [apply dens_pos|]. intro g. apply dens_whole.
  apply (in_map (fun rs => sv_cost (length rows) calc (map fst rs))). apply filter_parts.
Qed.
(** Numbers close to the losses exist, as close as one likes. *)
Theorem C99_numbers : forall eps rows, (0 < eps)%Q -> exists calc, computes eps calc rows.
Proof.
  intros eps rows He. assert (D : forall x : R, exists q : Q, (Rabs (Q2R q - x) <= Q2R eps)%R).
  { intro x. apply Qlt_Rlt in He. rewrite Q2R_0 in He. destruct eps as [a b]. assert (Hb : (0 < IZR (Zpos b))%R) by (apply IZR_lt; lia).
    exists (Qmake (Rdefinitions.up (x * IZR (Zpos b))%R) b). destruct (archimed (x * IZR (Zpos b))%R) as [A1 A2]. set (u := IZR (Rdefinitions.up _)) in *.
    assert (Ha : (1 <= IZR a)%R). { apply IZR_le. unfold Q2R in He. cbn [Qnum Qden] in He. assert (0 < IZR a)%R; [|apply lt_IZR in H; lia]. apply (Rmult_lt_compat_r (IZR (Zpos b))) in He; [|exact Hb]. rewrite Rmult_assoc, Rinv_l in He by lra. lra. }
    unfold Q2R. cbn [Qnum Qden]. fold u. replace (u * / IZR (Zpos b) - x)%R with ((u - x * IZR (Zpos b)) * / IZR (Zpos b))%R by (field; lra).
    rewrite Rabs_mult, (Rabs_right (/ IZR (Zpos b))) by (left; apply Rinv_0_lt_compat; exact Hb). apply Rmult_le_compat_r; [left; apply Rinv_0_lt_compat; exact Hb|]. rewrite Rabs_right by lra. lra. }
  assert (F : forall l : list (list nat), exists calc, forall ids, In ids l -> (Rabs (Q2R (calc ids) - sa_error (pick_rows rows ids)) <= Q2R eps)%R).
  { induction l as [|i l (calc & IH)]; [exists (fun _ => 0%Q); intros ids []|]. destruct (D (sa_error (pick_rows rows i))) as (q & Hq). exists (fun ids => if list_eq_dec Nat.eq_dec ids i then q else calc ids).
    intros ids Hi. destruct (list_eq_dec Nat.eq_dec ids i) as [->|N]; [exact Hq|]. destruct Hi as [->|Hi]; [destruct N; reflexivity|apply IH; exact Hi]. }
  destruct (F (parts (seq 0 (length rows)))) as (calc & HC). exists calc. intros ids NE A.
  assert (P : forall n lo ids, ascending lo (lo + n) ids = true -> In ids (parts (seq lo n))).
  { clear. induction n as [|n IH]; intros lo ids H.
    - destruct ids as [|i ids]; [left; reflexivity|]. cbn [ascending] in H. rewrite !andb_true_iff, Nat.leb_le, Nat.ltb_lt in H. lia.
    - cbn [seq parts]. apply in_or_app. destruct ids as [|i ids]; [right; apply IH; reflexivity|]. cbn [ascending] in H. rewrite !andb_true_iff, Nat.leb_le, Nat.ltb_lt in H. destruct H as [[H1 H2] H3].
      replace (lo + S n) with (S lo + n) in * by lia. destruct (Nat.eq_dec i lo) as [->|N]; [left; apply in_map, IH; exact H3|right]. apply IH. cbn [ascending]. rewrite H3, (proj2 (Nat.leb_le (S lo) i)), (proj2 (Nat.ltb_lt i (S lo + n))) by lia. reflexivity. }
  eapply Rle_trans; [apply HC, P; exact A|]. apply Qlt_Rlt in He. rewrite Q2R_0 in He. assert (1 <= INR (length ids))%R by (change 1%R with (INR 1); apply le_INR; destruct ids; [congruence|cbn; lia]). rewrite <- (Rmult_1_r (Q2R eps)) at 1. apply Rmult_le_compat_l; lra.
Qed.

(** * The fit *)
(** A fit that is proven optimal returns a tree within the limits with positive risk factors; its score
    is its loss per row; and the loss of no other tree within the limits is smaller by more than
    the factor (10001/10000)^e, e = (d+1)(d+2)/2 for depth d, the rounding errors [eps] per row, and
    one half for each leaf of the tree in which no event was observed. *)
Theorem C99_survival_partial : forall S eps B calc W P nf clk rows, surv_usable S eps B calc W P nf rows ->
  let R := fit_surv S calc W P nf clk rows in sv_proven R = true ->
  exists t, sv_tree R = Some t
    /\ thetas_pos t
    /\ surv_allowed nf (w_mls W) (p_depth P) (2 ^ p_depth P - 1) (view_of rows) t
    /\ sv_score R = Some (tree_loss t (view_of rows) / INR (length rows))%R
    /\ forall t', thetas_pos t' -> surv_allowed nf (w_mls W) (p_depth P) (p_nodes P) (view_of rows) t' ->
         ((tree_loss t (view_of rows) - INR (quiet (view_of rows) t) / 2 - Q2R eps * INR (length rows)) * 10000 ^ slack (p_depth P)
          <= (tree_loss t' (view_of rows) + Q2R eps * INR (length rows)) * 10001 ^ slack (p_depth P))%R.
Proof.
  intros S eps B calc W P nf clk rows HU R Hp. subst R. unfold fit_surv in *. cbv zeta in *. cbn [sv_proven sv_tree sv_score] in *.
  destruct HU as [HBits OK HL HN [Hlb Htm] HE HC HB HM [HS HG]].
  set (us := view_of rows). set (data := sv_data rows) in *. set (cost := sv_cost (length rows) calc) in *.
  pose proof (rel_data rows OK : Forall2 rel data us) as Hrel. pose proof (view_hazards rows OK : hazards_ok (map snd us)) as Hz. pose proof (data_len rows : length data = length rows) as Hlen.
  assert (HSq : (0 < inject_Z S)%Q) by (change 0%Q with (inject_Z 0); rewrite <- Zlt_Qlt; exact HS).
  assert (Hch : chosen rows data) by (exists (fun _ => true); symmetry; fold data; clear; induction data as [|r rs IH]; cbn; congruence).
  set (good := fun L => exists g : fvec -> bool, L = map fst (filter (fun r : sv_row => g (ifv (fst r))) data)).
  destruct (custom_fit S cost None (map fst data) nf (B + eps)%Q good) with (W := W) (P := P) (clk := clk) as (t & R1 & R2 & R3 & R4 & R5 & _ & R8).
  - exact HS.
  - intros L L' E. unfold cost, sv_cost. destruct L, L'; try discriminate E; [reflexivity|]. rewrite E. reflexivity.
  - intro L. apply cost_range; assumption.
  - intros L (g & ->). apply HG.
  - exists (fun _ => true). f_equal. clear. induction data as [|r rs IH]; cbn; congruence.
  - intros f L (g & ->). split; [exists (fun x => g x && negb (fv_has x f))|exists (fun x => g x && fv_has x f)]; [rewrite map_left|rewrite map_right]; f_equal; apply filter_two.
  - apply seq_loaded; [rewrite map_length; change (map iid (map fst data) = seq 0 (@length sv_row data)); rewrite Hlen; apply data_ids|]. intros x Hx. apply in_map_iff in Hx. destruct Hx as (r & <- & Hr). unfold data, sv_data in Hr. apply in_map_iff in Hr. destruct Hr as ((i & u) & <- & Hu). apply in_combine_r in Hu. rewrite Forall_forall in HBits.
    eexists. split; [|reflexivity]. rewrite map_length. apply HBits. exact Hu.
  - cbn. lia.
  - apply Rle_Qle. rewrite Q2R_plus, Q2R_0. destruct HB as [B0 _]. apply Qle_Rle in B0. apply Qle_Rle in HE. rewrite Q2R_0 in *. lra.
  - rewrite map_length. change (1 <= w_mls W <= @length sv_row data). lia.
  - exact Hlb.
  - exact Htm.
  - intro X. destruct X. reflexivity.
  - exact HN.
  - rewrite map_length. change (@length (inst * (bool * Q)) data) with (@length sv_row data). rewrite Hlen. cbn [node_cost]. setoid_replace (inject_Z S * (qn (length rows) * (B + eps)) + inject_Z 0 * qn (2 ^ p_depth P - 1))%Q with ((qn (length rows) * (B + eps)) * inject_Z S)%Q by (change (inject_Z 0) with 0%Q; ring).
    rewrite (Qmult_comm (inject_Z S)). apply Qmult_le_compat_r; [exact HM|]. apply Qlt_le_weak. exact HSq.
  - exact Hp.
  - rewrite R1. cbn [option_map]. exists (sv_fill data t). split; [reflexivity|]. assert (L1 : leaves_ok 1 (map fst data) t) by (apply (leaves_more (w_mls W)); [lia|exact R3]).
    destruct (fill_loss t data us Hrel Hz L1) as (E1 & P1 & T1). split; [exact P1|]. split; [|split].
    + split; [apply fill_fits; exact R2|]. split; [apply (fill_leaves _ t data us Hrel R3)|]. rewrite fill_depth, fill_nodes. auto.
    + rewrite T1. reflexivity.
    + intros t' TP (A1 & A2 & A3 & A4). rewrite <- sshape_depth in A3. rewrite <- sshape_nodes in A4.
      specialize (R8 (sshape t') (proj2 (sshape_fits nf t') A1) (shape_leaves _ t' data us Hrel A2) A3 A4). cbn [node_cost] in R8.
      pose proof (shape_loss t' us TP Hz (sleaves_more _ _ _ (proj1 HL) A2)) as SL.
      pose proof (tree_close eps calc rows OK HC t data us Hch Hrel L1) as C1. pose proof (tree_close eps calc rows OK HC (sshape t') data us Hch Hrel (leaves_more (w_mls W) _ _ (proj1 HL) (shape_leaves _ t' data us Hrel A2))) as C2.
      rewrite Hlen in C1, C2. apply Rabs_le_between in C1. apply Rabs_le_between in C2. fold cost in C1, C2.
      unfold q_at_most in R8. apply Qle_Rle in R8. rewrite !Q2R_mult, !Q2R_plus, !Q2R_Z in R8.
      assert (D0 : forall q k, Q2R (inject_Z 0 / inject_Z q * k) = 0%R) by (intros; rewrite <- Q2R_0; apply Qeq_eqR; change (inject_Z 0) with 0%Q; unfold Qdiv; ring). rewrite !D0, !Rplus_0_r in R8.
      rewrite <- !pow_IZR in R8. rewrite E1. set (a := (10000 ^ slack (p_depth P))%R) in *. set (b := (10001 ^ slack (p_depth P))%R) in *.
      assert (Ha : (0 <= a)%R) by (apply pow_le; lra). assert (Hb : (0 <= b)%R) by (apply pow_le; lra).
      eapply Rle_trans; [|eapply Rle_trans; [exact R8|]]; apply Rmult_le_compat_r; try assumption; lra.
Qed.

(** * A case *)
(** Two rows, told apart by a feature, with events at times 1 and 2: their baseline hazards are 1/2 and 3/2.
    One leaf for both has the loss ln (4/3); the program computes 7/24 for it. *)
Definition two_rows : list surow := [([0], (1%Q, true)); ([1], (2%Q, true))].
Definition two_calc (ids : list nat) : Q := match ids with [_; _] => 7 # 24 | _ => 0 end.
Definition sv_switches : switches := Switches true false false false true true true false 1.
Definition sv_params : params := Params 1 1 false 2147483647.
Lemma two_seen : map snd (view_of two_rows) = [(true, 1 / 2); (true, 3 / 2)]%R.
Proof.
  unfold view_of, two_rows, seen. cbn [map fst snd].
  assert (E1 : Q2R (baseline [(1%Q, true); (2%Q, true)] (1 + (1 # 1000000))) = (1 / 2)%R) by (rewrite (Qeq_eqR _ (1 # 2)); [unfold Q2R; cbn; lra|vm_compute; reflexivity]).
  assert (E2 : Q2R (baseline [(1%Q, true); (2%Q, true)] (2 + (1 # 1000000))) = (3 / 2)%R) by (rewrite (Qeq_eqR _ (3 # 2)); [unfold Q2R; cbn; lra|vm_compute; reflexivity]).
  exact (f_equal2 (fun a b => [(true, a); (true, b)]) E1 E2).
Qed.
Lemma two_first : snd (seen two_rows ([0], (1%Q, true))) = (true, 1 / 2)%R.
Proof. exact (f_equal (fun l => nth 0 l (true, 0%R)) two_seen). Qed.
Lemma two_second : snd (seen two_rows ([1], (2%Q, true))) = (true, 3 / 2)%R.
Proof. exact (f_equal (fun l => nth 1 l (true, 0%R)) two_seen). Qed.
Lemma two_view : view_of two_rows = [seen two_rows ([0], (1%Q, true)); seen two_rows ([1], (2%Q, true))].
Proof. reflexivity. Qed.
Lemma two_pick ids : ascending 0 2 ids = true -> ids <> [] -> (ids = [0] /\ pick_rows two_rows ids = [(true, 1 / 2)]%R) \/ (ids = [1] /\ pick_rows two_rows ids = [(true, 3 / 2)]%R) \/ (ids = [0; 1] /\ pick_rows two_rows ids = [(true, 1 / 2); (true, 3 / 2)]%R).
Proof.
  unfold pick_rows. rewrite two_view.
  destruct ids as [|[|[|i]] [|[|[|j]] [|[|[|k]] ids]]]; intros H N; try discriminate H; try (destruct (N eq_refl)); cbn [map nth]; rewrite ?two_first, ?two_second; auto.
Qed.
Lemma one_error h : (0 < h)%R -> sa_error [(true, h)] = 0%R.
Proof.
  intro H. assert (Z : hazards_ok [(true, h)]) by (repeat constructor; exact H). rewrite error_eq by exact Z. cbn [events filter fst length Nat.eqb]. rewrite theta_eq. cbn [events filter fst length Nat.eqb INR haz sumR snd]. unfold loss, row_loss. cbn [sumR fst snd].
  replace (1 / (h + 0) * h)%R with 1%R by (field; lra). rewrite ln_1. lra.
Qed.
Lemma two_error : sa_error [(true, 1 / 2); (true, 3 / 2)]%R = ln (4 / 3).
Proof.
  assert (Z : hazards_ok [(true, 1 / 2); (true, 3 / 2)]%R) by (repeat constructor; cbn; lra). rewrite error_eq by exact Z. cbn [events filter fst length Nat.eqb]. rewrite theta_eq. cbn [events filter fst length Nat.eqb INR haz sumR snd]. unfold loss, row_loss. cbn [sumR fst snd].
  replace ((1 + 1) / (1 / 2 + (3 / 2 + 0)))%R with 1%R by field. rewrite !Rmult_1_l.
  assert (E : (ln (4 / 3) = - (ln (1 / 2) + ln (3 / 2)))%R); [|rewrite E; lra]. rewrite <- ln_mult by lra. rewrite <- ln_Rinv by lra. f_equal. field.
Qed.
Lemma two_usable : surv_usable 24 (1 # 48) (1 # 2) two_calc sv_switches sv_params 1 two_rows.
Proof.
  constructor; try (cbn; lia).
  - repeat constructor.
  - repeat constructor; cbn; unfold Qle; cbn; lia.
  - unfold Qle. cbn. lia.
  - intros ids N A. destruct (two_pick ids A N) as [[-> ->]|[[-> ->]|[-> ->]]]; cbn [two_calc length INR].
    + rewrite one_error by lra. unfold Q2R. cbn. rewrite Rabs_right; lra.
    + rewrite one_error by lra. unfold Q2R. cbn. rewrite Rabs_right; lra.
    + rewrite two_error. assert (U : (ln (4 / 3) <= 4 / 3 - 1)%R) by (apply ln_le; lra). assert (V : (ln (3 / 4) <= 3 / 4 - 1)%R) by (apply ln_le; lra).
      assert (E : (ln (4 / 3) = - ln (3 / 4))%R) by (rewrite <- ln_Rinv by lra; f_equal; field). apply Rabs_le. unfold Q2R. cbn. lra.
  - split; [unfold Qle; cbn; lia|]. assert (H : Forall (fun r => (row_loss 1 r <= Q2R (1 # 2))%R) (map snd (view_of two_rows))); [|rewrite Forall_map in H; exact H]. rewrite two_seen.
    assert (E2 : (ln (1 / 2) = - ln 2)%R) by (rewrite <- ln_Rinv by lra; f_equal; field). assert (U : (ln 2 <= 2 - 1)%R) by (apply ln_le; lra). assert (E3 : (ln (3 / 2) = - ln (2 / 3))%R) by (rewrite <- ln_Rinv by lra; f_equal; field). assert (V : (ln (2 / 3) <= 2 / 3 - 1)%R) by (apply ln_le; lra).
    apply Forall_cons; [|apply Forall_cons; [|apply Forall_nil]]; unfold row_loss, Q2R; cbn [fst snd Qnum Qden]; rewrite Rmult_1_l; lra.
  - unfold Qle. cbn. lia.
  - split; [reflexivity|]. intro g. set (a := fv_make [false]). set (b := fv_make [true]). unfold two_rows, sv_data. cbn [length seq combine map fst snd filter ifv Nat.eqb negb]. fold a b. destruct (g a), (g b); [exists 7%Z|exists 0%Z|exists 0%Z|exists 0%Z]; vm_compute; reflexivity.
Qed.
Example C99_ex : surv_usable 24 (1 # 48) (1 # 2) two_calc sv_switches sv_params 1 two_rows
  /\ sv_proven (fit_surv 24 two_calc sv_switches sv_params 1 (fun _ => true) two_rows) = true
  /\ sv_tree (fit_surv 24 two_calc sv_switches sv_params 1 (fun _ => true) two_rows) = Some (SNode 0 (SLeaf 2) (SLeaf (2 / 3)))
  /\ tree_loss (SNode 0 (SLeaf 2) (SLeaf (2 / 3))) (view_of two_rows) = 0%R
  /\ (forall th, (0 < th)%R -> (1 / 4 <= tree_loss (SLeaf th) (view_of two_rows))%R).
Proof.
  assert (T : fr_tree (fit (custom_task 24 (sv_cost 2 two_calc) None) sv_switches (Params 1 1 false (24 * upper_bound 2147483647)) 1 (fun _ => true) [map fst (sv_data two_rows)]) = Some (Split 0 (Leaf 0) (Leaf 0))) by (vm_compute; reflexivity).
  assert (Pr : fr_proven (fit (custom_task 24 (sv_cost 2 two_calc) None) sv_switches (Params 1 1 false (24 * upper_bound 2147483647)) 1 (fun _ => true) [map fst (sv_data two_rows)]) = true) by (vm_compute; reflexivity).
  assert (X : sv_fill (sv_data two_rows) (Split 0 (Leaf 0) (Leaf 0)) = SNode 0 (SLeaf 2) (SLeaf (2 / 3))).
  { pose proof (rel_data two_rows (su_times _ _ _ _ _ _ _ _ two_usable)) as H. cbn [sv_fill]. rewrite (rel_hrows _ _ (rel_left 0 _ _ H)), (rel_hrows _ _ (rel_right 0 _ _ H)).
    rewrite two_view. change (filter (fun x : frow => negb (fst x 0)) [seen two_rows ([0], (1%Q, true)); seen two_rows ([1], (2%Q, true))]) with [seen two_rows ([0], (1%Q, true))].
    change (filter (fun x : frow => fst x 0) [seen two_rows ([0], (1%Q, true)); seen two_rows ([1], (2%Q, true))]) with [seen two_rows ([1], (2%Q, true))].
    transitivity (SNode 0 (SLeaf (sa_theta [(true, 1 / 2)%R])) (SLeaf (sa_theta [(true, 3 / 2)%R]))); [exact (f_equal2 (fun a b => SNode 0 (SLeaf (sa_theta [a])) (SLeaf (sa_theta [b]))) two_first two_second)|].
    rewrite !theta_eq. cbn [events filter fst length Nat.eqb INR haz sumR snd]. f_equal; f_equal; field. }
  split; [exact two_usable|]. split; [exact Pr|]. split; [unfold fit_surv; cbv zeta; cbn [sv_tree]; change (length two_rows) with 2; cbn [sv_params p_depth p_nodes p_all p_ub]; rewrite T; cbn [option_map]; rewrite X; reflexivity|]. split.
  - unfold tree_loss. rewrite two_view. cbn [sumR]. rewrite two_first, two_second. change (srisk (SNode 0 (SLeaf 2) (SLeaf (2 / 3))) (fst (seen two_rows ([0], (1%Q, true))))) with 2%R. change (srisk (SNode 0 (SLeaf 2) (SLeaf (2 / 3))) (fst (seen two_rows ([1], (2%Q, true))))) with (2 / 3)%R. unfold row_loss. cbn [fst snd].
    replace (2 * (1 / 2))%R with 1%R by field. replace (2 / 3 * (3 / 2))%R with 1%R by field. rewrite ln_1. lra.
  - intros th Hth. rewrite leaf_loss, two_seen. assert (Z : hazards_ok [(true, 1 / 2); (true, 3 / 2)]%R) by (repeat constructor; cbn; lra). pose proof (error_le _ th Z ltac:(discriminate) Hth) as L. rewrite two_error in L.
    assert (V : (ln (3 / 4) <= 3 / 4 - 1)%R) by (apply ln_le; lra). assert (E : (ln (4 / 3) = - ln (3 / 4))%R) by (rewrite <- ln_Rinv by lra; f_equal; field). lra.
Qed.

(** Without the one half for leaves in which no event was observed the claim is false: the search counts
    such a leaf as 0, but gives it a risk factor with the loss 1/2. *)
Definition calm_rows : list surow := [([0], (1%Q, false))].
Lemma calm_seen : map snd (view_of calm_rows) = [(false, 1 / 2)]%R.
Proof.
  unfold view_of, calm_rows, seen. cbn [map fst snd].
  assert (E : Q2R (baseline [(1%Q, false)] (1 + (1 # 1000000))) = (1 / 2)%R) by (rewrite (Qeq_eqR _ (1 # 2)); [unfold Q2R; cbn; lra|vm_compute; reflexivity]).
  exact (f_equal (fun a => [(false, a)]) E).
Qed.
Lemma calm_usable : surv_usable 1 0 (1 # 2) (fun _ => 0%Q) sv_switches sv_params 1 calm_rows.
Proof.
  constructor; try (cbn; lia).
  - repeat constructor.
  - repeat constructor; cbn; unfold Qle; cbn; lia.
  - unfold Qle. cbn. lia.
  - intros ids N A. assert (E : ids = [0]) by (destruct ids as [|[|i] [|j ids]]; [destruct (N eq_refl)|reflexivity|destruct j; discriminate A|discriminate A|discriminate A]). subst ids.
    replace (pick_rows calm_rows [0]) with [(false, 1 / 2)]%R by (symmetry; exact calm_seen). assert (Z : hazards_ok [(false, 1 / 2)]%R) by (repeat constructor; cbn; lra). rewrite error_eq by exact Z. cbn [events filter fst length Nat.eqb]. rewrite Q2R_0, Rminus_0_r, Rabs_R0. lra.
  - split; [unfold Qle; cbn; lia|]. assert (H : Forall (fun r => (row_loss 1 r <= Q2R (1 # 2))%R) (map snd (view_of calm_rows))); [|rewrite Forall_map in H; exact H]. rewrite calm_seen. apply Forall_cons; [|apply Forall_nil]. unfold row_loss, Q2R. cbn [fst snd Qnum Qden]. lra.
  - unfold Qle. cbn. lia.
  - split; [reflexivity|]. intro g. exists 0%Z. unfold calm_rows, sv_data. cbn [length seq combine map fst snd filter ifv Nat.eqb negb]. destruct (g (fv_make [false])); vm_compute; reflexivity.
Qed.
Theorem C99_quiet_refuted : ~ forall S eps B calc W P nf clk rows, surv_usable S eps B calc W P nf rows ->
  let R := fit_surv S calc W P nf clk rows in sv_proven R = true ->
  exists t, sv_tree R = Some t
    /\ forall t', thetas_pos t' -> surv_allowed nf (w_mls W) (p_depth P) (p_nodes P) (view_of rows) t' ->
         ((tree_loss t (view_of rows) - Q2R eps * INR (length rows)) * 10000 ^ slack (p_depth P) <= (tree_loss t' (view_of rows) + Q2R eps * INR (length rows)) * 10001 ^ slack (p_depth P))%R.
Proof.
  intro H. set (R := fit (custom_task 1 (sv_cost 1 (fun _ => 0%Q)) None) sv_switches (Params 1 1 false (1 * upper_bound 2147483647)) 1 (fun _ => true) [map fst (sv_data calm_rows)]).
  assert (T : fr_tree R = Some (Leaf 0)) by (vm_compute; reflexivity). assert (Pr : fr_proven R = true) by (vm_compute; reflexivity).
  destruct (H 1%Z 0%Q (1 # 2)%Q (fun _ => 0%Q) sv_switches sv_params 1 (fun _ => true) calm_rows calm_usable Pr) as (t & E & B). clear H.
  unfold fit_surv in E. cbv zeta in E. cbn [sv_tree] in E. change (fr_tree _) with (fr_tree R) in E. rewrite T in E. cbn [option_map sv_fill] in E.
  assert (M : map sv_hrow (sv_data calm_rows) = [(false, 1 / 2)]%R) by exact (eq_trans (rel_hrows _ _ (rel_data calm_rows (su_times _ _ _ _ _ _ _ _ calm_usable))) calm_seen).
  rewrite M in E. injection E as <-.
  specialize (B (SLeaf (1 / 2)) ltac:(cbn; lra) ltac:(split; [exact I|]; split; [cbn; lia|]; cbn; lia)). rewrite !leaf_loss, calm_seen, theta_eq in B. cbn [events filter fst length Nat.eqb haz sumR snd] in B. unfold loss, row_loss in B. cbn [sumR fst snd] in B. rewrite Q2R_0 in B. cbn [slack sv_params p_depth Nat.add Nat.mul Nat.div Nat.divmod fst] in B.
  replace ((1 / 2 / (1 / 2 + 0) * (1 / 2) + 0 - 0 * INR 1))%R with (1 / 2)%R in B by (field; lra). lra.
Qed.

Print Assumptions C99_units.
Print Assumptions C99_numbers.
Print Assumptions C99_survival_partial.
Print Assumptions C99_quiet_refuted.
