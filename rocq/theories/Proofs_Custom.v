(** Fits of tasks with their own leaf function and a constant cost of nodes. *)
From Coq Require Import List Arith Bool Lia ZArith QArith Qround Lqa Permutation.
From Verif Require Import Base_Q Model_FeatureVector Model_Data Model_Node Model_Cache Model_Terminal Model_Heap Model_Solver Model_Preproc Model_CostComplex Model_Regression Model_Tasks Model_SimpleLinear Model_RegFit Model_LinFit
  Spec_Tree Spec_Rows Spec_Tasks Spec_Reg Proofs_View Proofs_Feature Proofs_Base Proofs_Preproc Proofs_Plain Proofs_PlainFit Proofs_Near Proofs_NearFit Proofs_Task Proofs_RegFit.
Import ListNotations.
Local Open Scope nat_scope.

Lemma tree_nodes t : nodes t <= 2 ^ depth t - 1.
Proof.
  induction t as [l|f l IHl r IHr]; cbn [nodes depth]; [cbn; lia|].
  pose proof (Nat.pow_le_mono_r 2 (depth l) (Nat.max (depth l) (depth r)) ltac:(lia) ltac:(lia)).
  pose proof (Nat.pow_le_mono_r 2 (depth r) (Nat.max (depth l) (depth r)) ltac:(lia) ltac:(lia)).
  rewrite Nat.pow_succ_r'. pose proof (Nat.pow_nonzero 2 (depth l)). pose proof (Nat.pow_nonzero 2 (depth r)). lia.
Qed.
(** Units that make some numbers whole. *)
Fixpoint parts {A} (l : list A) : list (list A) := match l with [] => [[]] | x :: l' => map (cons x) (parts l') ++ parts l' end.
Lemma filter_parts {A} (g : A -> bool) l : In (filter g l) (parts l).
Proof. induction l as [|x l IH]; cbn [filter parts]; [left; reflexivity|]. apply in_or_app. destruct (g x); [left; apply in_map|right]; exact IH. Qed.
Definition dens (qs : list Q) : Z := fold_right (fun q a => Zpos (Qden q) * a)%Z 1%Z qs.
Lemma dens_pos qs : (0 < dens qs)%Z.
Proof. unfold dens. induction qs as [|q qs IH]; cbn [fold_right]; lia. Qed.
Lemma dens_whole qs q : In q qs -> exists z, (inject_Z (dens qs) * q == inject_Z z)%Q.
Proof.
  unfold dens. induction qs as [|q' qs IH]; [intros []|]. cbn [fold_right]. set (D := fold_right _ _ qs) in *. intros [->|H].
  - exists (Qnum q * D)%Z. rewrite !inject_Z_mult. assert (E : (inject_Z (Zpos (Qden q)) * q == inject_Z (Qnum q))%Q) by (destruct q as [a b]; unfold Qeq, Qmult, inject_Z; cbn [Qnum Qden]; rewrite Pos.mul_1_l; lia). rewrite <- E. ring.
  - destruct (IH H) as (z & E). exists (Zpos (Qden q') * z)%Z. rewrite !inject_Z_mult, <- E. ring.
Qed.
(** Instances numbered from 0 on. *)
Lemma seq_sorted (L : list inst) : forall s, map iid L = seq s (length L) -> Sorted.StronglySorted (fun x y => iid x < iid y) L.
Proof.
  induction L as [|x L IH]; intros s E; [constructor|]. cbn [map length seq] in E. injection E as E1 E2. constructor; [apply (IH _ E2)|]. apply Forall_forall. intros y Hy. apply (in_map iid) in Hy. rewrite E2 in Hy. apply in_seq in Hy. lia.
Qed.
Lemma seq_loaded nf (L : list inst) : map iid L = seq 0 (length L) -> (forall x, In x L -> exists bits, length bits = nf /\ ifv x = fv_make bits) -> loaded nf [L].
Proof.
  intros E H. assert (C : concat [L] = L) by (cbn [concat]; apply app_nil_r). constructor.
  - rewrite C. exact H.
  - rewrite C, E. apply seq_NoDup.
  - unfold vsize. rewrite C. intros x Hx. apply (in_map iid) in Hx. rewrite E in Hx. apply in_seq in Hx. lia.
  - constructor; [|constructor]. apply (seq_sorted _ 0). exact E.
Qed.
(** The cost of a node. *)
Definition node_cost (obc : option Z) : Z := match obc with Some z => z | None => 0%Z end.
Section Custom.
  Context (S : Z) (cost : list inst -> Q) (obc : option Z) (insts : list inst) (nf : nat) (qmax : Q) (good : list inst -> Prop).
  Notation T := (custom_task S cost obc).
  Notation bc := (node_cost obc).
  Notation v := (insts :: nil).
  Hypothesis HS : (0 < S)%Z.
  Hypothesis Hids : forall L L', map iid L = map iid L' -> cost L = cost L'.
  Hypothesis Hrange : forall L, (0 <= cost L <= qn (length L) * qmax)%Q.
  Hypothesis Hgood : forall L, good L -> exists z, (inject_Z S * cost L == inject_Z z)%Q.
  Hypothesis Hroot : good insts.
  Hypothesis Hpart : forall f L, good L -> good (filter (fun x => negb (has f x)) L) /\ good (filter (has f) L).
  Hypothesis Hload : loaded nf v.
  Hypothesis Hbc : (0 <= bc)%Z.
  Hypothesis Hqm : (0 <= qmax)%Q.

  (** The value of a tree with the best leaves. *)
  Fixpoint cerr (L : list inst) (t : tree) : Q :=
    match t with
    | Leaf _ => cost L
    | Split f l r => (cerr (filter (fun x => negb (has f x)) L) l + cerr (filter (has f) L) r)%Q
    end.
  Lemma HSq : (0 < inject_Z S)%Q.
  Proof. change 0%Q with (inject_Z 0). rewrite <- Zlt_Qlt. exact HS. Qed.
  Lemma cust_bcost n b f : bcost T n b f = bc.
  Proof. unfold bcost. cbn [custom_task tk_bc]. destruct obc; reflexivity. Qed.
  Lemma cust_cost t : forall L b, good L -> (inject_Z (tcost T [L] b t) == inject_Z S * cerr L t + inject_Z bc * qn (nodes t))%Q.
  Proof.
    induction t as [l|f l IHl r IHr]; intros L b HL; cbn [tcost cerr nodes].
    - cbn [custom_task tk_leaf concat]. rewrite app_nil_r. destruct (Hgood L HL) as (z & Hz). rewrite (qfloor_int _ _ Hz), <- Hz. change (qn 0) with 0%Q. ring.
    - rewrite !inject_Z_plus. change (split_left f [L]) with [filter (fun x => negb (has f x)) L]. change (split_right f [L]) with [filter (has f) L].
      destruct (Hpart f L HL) as [G1 G2]. rewrite (IHl _ (br_left b f) G1), (IHr _ (br_right b f) G2). rewrite cust_bcost. rewrite qn_S, qn_add. ring.
  Qed.
  Lemma cust_leaf u l : (0 <= tk_leaf T u l)%Z /\ (inject_Z (tk_leaf T u l) <= inject_Z S * (qn (vsize u) * qmax))%Q.
  Proof.
    cbn [custom_task tk_leaf]. destruct (Hrange (concat u)) as [A B]. change (length (concat u)) with (vsize u) in B. pose proof HSq as H. set (e := cost (concat u)) in *. split.
    - change 0%Z with (Qfloor (inject_Z 0)). apply Qfloor_resp_le. change (inject_Z 0) with 0%Q. apply Qmult_le_0_compat; lra.
    - eapply Qle_trans; [apply Qfloor_le|]. rewrite !(Qmult_comm (inject_Z S)). apply Qmult_le_compat_r; lra.
  Qed.
  Lemma cust_plain : plain_task T.
  Proof.
    constructor.
    - intros u l. apply cust_leaf.
    - intros n b f. rewrite cust_bcost. exact Hbc.
    - cbn. lia.
    - exact t_sdom_lt.
    - exact t_dom_refl.
    - exact t_eq_0.
  Qed.
  Lemma cust_near : near_task T.
  Proof. constructor; [exact cust_plain|reflexivity|]. intros a b _ H. cbn [custom_task tk_sdom] in H. unfold t_sdom in H. apply Z.ltb_ge in H. exact H. Qed.
  Lemma cust_bound t : forall u b, (inject_Z (tcost T u b t) <= inject_Z S * (qn (vsize u) * qmax) + inject_Z bc * qn (nodes t))%Q.
  Proof.
    induction t as [l|f l IHl r IHr]; intros u b; cbn [tcost nodes]; [pose proof (proj2 (cust_leaf u l)); change (qn 0) with 0%Q; lra|].
    specialize (IHl (split_left f u) (br_left b f)). specialize (IHr (split_right f u) (br_right b f)). rewrite cust_bcost.
    pose proof (vsize_split f u) as E. rewrite E, !inject_Z_plus, qn_S, !qn_add. lra.
  Qed.
  (** Leaves of trees on lists of instances. *)
  Lemma cust_leaves m t : leaves_ok m (concat v) t <-> leaves_ok m insts t.
  Proof. cbn [concat]. rewrite app_nil_r. reflexivity. Qed.

  Context (W : switches) (P : params) (clk : nat -> bool).
  Hypothesis Hmls : 1 <= w_mls W <= length insts.
  Hypothesis Hlb : w_lb W = false.
  Hypothesis Hterm : w_term W = false.
  Hypothesis Hub : obc <> None -> w_ub W = true.
  Hypothesis Hnodes : p_all P = true \/ p_nodes P = 1 -> p_nodes P <= 2 ^ p_depth P - 1.
  Hypothesis Hmost : (inject_Z S * (qn (length insts) * qmax) + inject_Z bc * qn (2 ^ p_depth P - 1) <= inject_Z S * inject_Z (Z.min (upper_bound (p_ub P)) (2 ^ 1023)))%Q.

  Notation R := (fit T W (Params (p_depth P) (p_nodes P) (p_all P) (S * upper_bound (p_ub P))) nf clk v).
  Theorem custom_fit : fr_proven R = true ->
    exists t, fr_tree R = Some t
      /\ fits (fun f => f < nf) 1 t /\ leaves_ok (w_mls W) insts t /\ depth t <= p_depth P /\ nodes t <= 2 ^ p_depth P - 1
      /\ (exists z, option_map fst (fr_train R) = Some z /\ inject_Z z == inject_Z S * cerr insts t + inject_Z bc * qn (nodes t))%Q
      /\ forall t', fits (fun f => f < nf) 1 t' -> leaves_ok (w_mls W) insts t' -> depth t' <= p_depth P -> nodes t' <= p_nodes P ->
           q_at_most (slack (p_depth P)) (cerr insts t + inject_Z bc / inject_Z S * qn (nodes t)) (cerr insts t' + inject_Z bc / inject_Z S * qn (nodes t')).
  Proof.
    intro Hp. set (P' := Params (p_depth P) (p_nodes P) (p_all P) (S * upper_bound (p_ub P))) in *.
    set (M := Z.min (upper_bound (p_ub P)) (2 ^ 1023)) in *.
    assert (HM : (M <= upper_bound (p_ub P) /\ M <= 2 ^ 1023)%Z) by (unfold M; lia). clearbody M. pose proof HSq as HSq.
    assert (Hdm : (10001 * 2 ^ 1023 < 10000 * dbl_max)%Z) by (vm_compute; reflexivity).
    assert (Hsz : vsize v = length insts) by (unfold vsize; cbn [concat]; rewrite app_nil_r; reflexivity).
    destruct (near_fit T cust_near W P' nf clk v (S * M)) as (t & R1 & R2 & R3 & R4).
    - lia.
    - reflexivity.
    - exact Hload.
    - cbn. lia.
    - rewrite Hsz. lia.
    - intros u u' l E. cbn [custom_task tk_leaf]. rewrite (Hids (concat u) (concat u')); [reflexivity|]. rewrite !concat_map, E. reflexivity.
    - intros. rewrite !cust_bcost. reflexivity.
    - left. intros. rewrite !cust_bcost. reflexivity.
    - exact Hlb.
    - exact Hterm.
    - intro Hs. split; [apply Hub; intro E; cbn [custom_task tk_sparse] in Hs; rewrite E in Hs; discriminate|]. exists bc. intros. apply cust_bcost.
    - intros. rewrite !cust_bcost. reflexivity.
    - intros u b t Hu Hd. cbn [P' p_depth] in Hd. rewrite Hsz in Hu. pose proof (cust_bound t u b) as B. pose proof (tree_nodes t) as N.
      assert (2 ^ depth t <= 2 ^ p_depth P) by (apply Nat.pow_le_mono_r; lia). assert (N2 : nodes t <= 2 ^ p_depth P - 1) by lia.
      rewrite Zle_Qle, inject_Z_mult. eapply Qle_trans; [exact B|]. eapply Qle_trans; [|exact Hmost].
      assert (HQ : forall x y : nat, x <= y -> (qn x <= qn y)%Q) by (intros x y L; unfold qn; rewrite <- Zle_Qle; lia).
      assert (X1 : (qn (vsize u) * qmax <= qn (length insts) * qmax)%Q) by (apply Qmult_le_compat_r; [apply HQ; exact Hu|exact Hqm]).
      assert (X2 : (inject_Z bc * qn (nodes t) <= inject_Z bc * qn (2 ^ p_depth P - 1))%Q).
      { rewrite !(Qmult_comm (inject_Z bc)). apply Qmult_le_compat_r; [apply HQ; exact N2|]. change 0%Q with (inject_Z 0). rewrite <- Zle_Qle. exact Hbc. }
      assert (X3 : (inject_Z S * (qn (vsize u) * qmax) <= inject_Z S * (qn (length insts) * qmax))%Q) by (rewrite !(Qmult_comm (inject_Z S)); apply Qmult_le_compat_r; lra).
      lra.
    - intros z Hz. cbn [custom_task tk_sdom tk_worst]. unfold t_sdom. apply Z.ltb_lt. nia.
    - cbn [custom_task tk_worst]. nia.
    - exact Hnodes.
    - exact Hp.
    - cbn [P' p_ub]. nia.
    - cbn [P' p_depth p_nodes] in *. destruct R2 as (A1 & A2 & A3 & A4). exists t. split; [exact R1|].
      split; [exact A1|]. split; [apply cust_leaves; exact A2|]. split; [lia|].
      split; [pose proof (Nat.pow_le_mono_r 2 (Nat.min (p_depth P) (p_nodes P)) (p_depth P) ltac:(lia) ltac:(lia)); lia|]. split.
      + exists (tcost T v [] t). split; [exact R3|]. apply cust_cost. exact Hroot.
      + intros t' B1 B2 B3 B4. assert (Ht' : allowed (fun f => f < nf) (w_mls W) (p_depth P) (p_nodes P) v t') by (split; [exact B1|]; split; [apply cust_leaves; exact B2|]; auto).
        specialize (R4 t' Ht'). unfold at_most in R4. unfold q_at_most. rewrite Zle_Qle, !inject_Z_mult, !(cust_cost _ insts [] Hroot) in R4.
        set (a := inject_Z (10000 ^ _)) in *. set (b := inject_Z (10001 ^ _)) in *. set (x := qn (nodes t)) in *. set (y := qn (nodes t')) in *.
        apply (Qmult_le_l _ _ (inject_Z S) HSq).
        assert (E1 : (inject_Z S * ((cerr insts t + inject_Z bc / inject_Z S * x) * a) == (inject_Z S * cerr insts t + inject_Z bc * x) * a)%Q) by (field; lra).
        assert (E2 : (inject_Z S * ((cerr insts t' + inject_Z bc / inject_Z S * y) * b) == (inject_Z S * cerr insts t' + inject_Z bc * y) * b)%Q) by (field; lra).
        rewrite E1, E2. exact R4.
  Qed.
End Custom.
