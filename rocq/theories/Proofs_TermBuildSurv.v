(** Survival trees constructed from the answers of the depth-two solver, for any minimum leaf size. *)
From Coq Require Import List Arith Bool Lia ZArith QArith Qabs Qminmax Lqa Permutation Sorted.
From Verif Require Import Proofs_RecCalc Base_Q Model_FeatureVector Model_Data Model_Node Model_Terminal Model_Regression Model_SimpleLinear Model_TermReg Model_TermSurv Spec_Tree
  Proofs_View Proofs_Diff Proofs_Feature Proofs_Calc Proofs_TermState Props_Regression Proofs_TermReg Proofs_TermSound Proofs_TermSurv.
Import ListNotations.
Local Open Scope nat_scope.

Section Build.
  Context (lg : Q -> Q) (hz : inst -> Q) (ev : inst -> bool) (nf mls : nat).
  Hypothesis Hlg : forall a b, (a == b -> lg a == lg b)%Q.
  Hypothesis Hm : 1 <= mls.
  Section Child.
    Context (x : qnode) (f : nat) (u : view) (s : bool).
    Hypothesis Hwf : wf_view nf u.
    Hypothesis Hf : f < nf.
    Hypothesis Hx : (0 <= n_val x)%Q.
    Notation k := (su_rec lg hz ev nf f u).
    Notation side := (sd s f u).
    Definition ok_child (n : nat) (p : Q * rtree) : Prop :=
      exists t, tokm nf mls NN side t /\ nodes t = n /\ depth t <= 1 /\ (fst p == tv 0 (LL lg hz ev) side t)%Q /\ filled hz ev side t (snd p).
    Lemma rd_hd y g : In y (concat u) -> g < nf -> occ (rec_indices nf f y) (ixd nf g) = b2z (has g y).
    Proof. intros Hy Hg. apply rec_diag; [apply Hwf; exact Hy|exact Hf|exact Hg]. Qed.
    Lemma rd_hp y a g : In y (concat u) -> (a = f /\ g <> f) -> a < nf -> g < nf -> occ (rec_indices nf f y) (ix11 nf a g) = b2z (has a y && has g y).
    Proof. intros Hy [-> Hne] _ Hg. apply rec_pair; [apply Hwf; exact Hy|exact Hf|exact Hg|exact Hne]. Qed.
    Lemma add_child c q t : exists z, (qc_add (n_val x) c q t = c \/ qc_add (n_val x) c q t = Some (q, t)) /\ qc_add (n_val x) c q t = z
      /\ (forall p, c = Some p -> exists p', z = Some p' /\ (fst p' <= fst p)%Q) /\ ((q <= n_val x)%Q -> exists p', z = Some p' /\ (fst p' <= q)%Q).
    Proof.
      eexists. split; [|split; [reflexivity|]]; unfold qc_add; destruct (qlt _ q) eqn:E.
      - left. reflexivity.
      - destruct c as [[q' t']|]; [destruct (qlt q q')|]; auto.
      - split; [intros p ->; exists p; split; [reflexivity|lra]|]. intro L. apply qlt_spec in E. exfalso. assert (n_val x * (1 + (1 # 10000)) == n_val x + n_val x * (1 # 10000))%Q by ring. lra.
      - destruct c as [[q' t']|].
        + destruct (qlt q q') eqn:E2; [apply qlt_spec in E2|apply qlt_false in E2]; (split; [intros p [= <-]|intros _]); eexists; (split; [reflexivity|]); cbn [fst]; lra.
        + split; [discriminate|]. intros _. eexists. split; [reflexivity|]. cbn [fst]. lra.
    Qed.
    Lemma child_leaf : (Z.of_nat mls <= NN side)%Z -> ((LL lg hz ev) side <= n_val x)%Q ->
      exists p, su_best_child lg nf mls x k f s 0 = Some p /\ ok_child 0 p.
    Proof.
      intros Hn Hl. unfold su_best_child. cbn [Nat.eqb].
      assert (G : forall fs c, fold_left (su_split_child lg nf mls x k f s 0) fs c = c). { induction fs as [|g fs IH]; intro c; cbn [fold_left]; [reflexivity|]. rewrite IH. unfold su_split_child. cbn [Nat.eqb negb andb]. destruct (g =? f); reflexivity. }
      rewrite G. set (q := su_cost lg (q_sum1 nf k s f)). set (t := RLeaf _).
      assert (Eq : (q == (LL lg hz ev) side)%Q) by (apply (read_leaf1 lg hz ev nf Hlg (rec_indices nf f) u k rd_hd (fun i => rec_cells lg hz ev nf f u i) s f Hf)).
      destruct (add_child None q t) as (z & A & Ez & _ & B). destruct (B ltac:(lra)) as (p' & E & _). rewrite <- Ez in E. destruct A as [A|A]; rewrite A in E; [discriminate|]. injection E as <-.
      exists (q, t). split; [exact A|]. exists (Leaf 0). split; [exact Hn|]. split; [reflexivity|]. split; [cbn; lia|]. split; [exact Eq|].
      cbn [filled snd]. unfold t. apply (label_sums lg hz ev).
      rewrite sd_filter. apply (read_s1 lg hz ev nf (rec_indices nf f) u k rd_hd (fun i => rec_cells lg hz ev nf f u i) s f Hf).
    Qed.
    Lemma child_split l0 : nodes l0 = 1 -> tokm nf mls NN side l0 -> (tv 0 (LL lg hz ev) side l0 <= n_val x)%Q ->
      exists p, su_best_child lg nf mls x k f s 1 = Some p /\ ok_child 1 p /\ (fst p <= tv 0 (LL lg hz ev) side l0)%Q.
    Proof.
      intros Hn Ht Hv. destruct l0 as [|g0 [a|] [c|]]; cbn [nodes] in Hn; try lia. cbn [tokm] in Ht. destruct Ht as (Hg0 & T1 & T2). unfold su_best_child. cbn [Nat.eqb].
      assert (N2 : forall t g, g <> f -> g < nf -> q_cnt2 nf k s t f g = NN (sd t g side)) by (intros t g Hne Hg; apply (read_n2 lg hz ev nf (rec_indices nf f) (fun a g => a = f /\ g <> f) u k rd_hd rd_hp (fun i => rec_cells lg hz ev nf f u i)); auto).
      assert (L2 : forall t g, g <> f -> g < nf -> (1 <= NN (sd t g side))%Z -> (su_cost lg (q_sum2 nf k s t f g) == (LL lg hz ev) (sd t g side))%Q) by (intros t g Hne Hg _; apply (read_leaf2 lg hz ev nf Hlg (rec_indices nf f) (fun a g => a = f /\ g <> f) u k rd_hd rd_hp (fun i => rec_cells lg hz ev nf f u i)); auto).
      assert (S2 : forall t g, g <> f -> g < nf -> sums_to lg hz ev (q_sum2 nf k s t f g) (concat (sd t g side))) by (intros t g Hne Hg; rewrite sd_filter2; apply (read_s2 lg hz ev nf (rec_indices nf f) (fun a g => a = f /\ g <> f) u k rd_hd rd_hp (fun i => rec_cells lg hz ev nf f u i)); auto).
      assert (Hne0 : g0 <> f). { intros ->. pose proof (same_empty s f u) as Z. destruct s; cbn [negb sd] in *; lia. }
      assert (G : forall fs c0, (forall g, In g fs -> g < nf) -> (forall p, c0 = Some p -> ok_child 1 p) ->
        let z := fold_left (su_split_child lg nf mls x k f s 1) fs c0 in
        (forall p, z = Some p -> ok_child 1 p) /\ (forall p, c0 = Some p -> exists p', z = Some p' /\ (fst p' <= fst p)%Q)
        /\ (In g0 fs -> exists p', z = Some p' /\ (fst p' <= tv 0 (LL lg hz ev) side (Split g0 (Leaf a) (Leaf c)))%Q)).
      { induction fs as [|g fs IH]; intros c0 Hin H0; cbn [fold_left]; cbn zeta.
        - split; [exact H0|]. split; [|intros []]. intros p ->. exists p. split; [reflexivity|lra].
        - assert (Hg : g < nf) by (apply Hin; left; reflexivity).
          assert (Q : (forall p, su_split_child lg nf mls x k f s 1 c0 g = Some p -> ok_child 1 p) /\ (forall p, c0 = Some p -> exists p', su_split_child lg nf mls x k f s 1 c0 g = Some p' /\ (fst p' <= fst p)%Q)
            /\ (g = g0 -> exists p', su_split_child lg nf mls x k f s 1 c0 g = Some p' /\ (fst p' <= tv 0 (LL lg hz ev) side (Split g0 (Leaf a) (Leaf c)))%Q)).
          { unfold su_split_child. destruct (Nat.eqb_spec g f) as [->|Hne].
            - split; [exact H0|]. split; [intros p ->; exists p; split; [reflexivity|lra]|congruence].
            - cbn [Nat.eqb negb andb]. destruct (enough mls (q_cnt2 nf k s false f g) && enough mls (q_cnt2 nf k s true f g)) eqn:E.
              + apply andb_true_iff in E. destruct E as [E1 E2]. rewrite enough_m in E1, E2. rewrite (N2 _ _ Hne Hg) in E1. rewrite (N2 _ _ Hne Hg) in E2. assert (E1' : (1 <= NN (sd false g side))%Z) by lia. assert (E2' : (1 <= NN (sd true g side))%Z) by lia. pose proof (L2 _ _ Hne Hg E1') as V1. pose proof (L2 _ _ Hne Hg E2') as V2.
                match goal with |- context [qc_add _ c0 ?qq ?tt] => set (q := qq); set (t := tt) end.
                assert (Eq : (q == (LL lg hz ev) (sd false g side) + (LL lg hz ev) (sd true g side))%Q) by (unfold q; rewrite V1, V2; ring).
                destruct (add_child c0 q t) as (z & A & Ez & B1 & B2). rewrite Ez in *. split; [|split; [exact B1|]].
                * intros p Hp. destruct A as [A|A]; [apply H0; congruence|]. assert (p = (q, t)) by congruence. subst p. exists (Split g (Leaf 0) (Leaf 0)). cbn [tokm]. split; [split; [exact Hg|split; assumption]|]. split; [reflexivity|]. split; [cbn; lia|]. split; [cbn [fst tv]; rewrite Eq; cbn [sd]; ring|].
                  cbn [filled snd]. unfold t. split; [reflexivity|]. split; [apply (label_sums lg hz ev _ (concat (sd false g side)))|apply (label_sums lg hz ev _ (concat (sd true g side)))]; apply S2; assumption.
                * intros ->. cbn [tv] in Hv |- *. cbn [sd] in Eq. destruct (B2 ltac:(lra)) as (p' & C1 & C2). exists p'. split; [exact C1|lra].
              + split; [exact H0|]. split; [intros p ->; exists p; split; [reflexivity|lra]|]. intros ->. exfalso. apply andb_false_iff in E. rewrite <- !not_true_iff_false, !enough_m, !N2 in E by assumption. cbn [sd tokm] in *. lia. }
          destruct Q as (Q1 & Q2 & Q3). destruct (IH _ (fun h Hh => Hin h (or_intror Hh)) Q1) as (I1 & I2 & I3). split; [exact I1|]. split.
          + intros p Hp. destruct (Q2 p Hp) as (p' & A & B). destruct (I2 p' A) as (p'' & C & D). exists p''. split; [exact C|lra].
          + intros [->|Hi]; [|apply I3; exact Hi]. destruct (Q3 eq_refl) as (p' & A & B). destruct (I2 p' A) as (p'' & C & D). exists p''. split; [exact C|lra]. }
      destruct (G (seq 0 nf) None) as (G1 & _ & G3); [intros g Hg; apply in_seq in Hg; lia|discriminate|]. destruct G3 as (p & A & B); [apply in_seq; lia|]. exists p. split; [exact A|]. split; [apply G1; exact A|exact B].
    Qed.
  End Child.

  Lemma build_sound u m x f : wf_view nf u -> madem 0 nf mls NN (LL lg hz ev) u 2 m (Some x) -> n_feat x = Some f ->
    exists r t, su_construct lg hz ev nf mls x u = Some r /\ tokm nf mls NN u t /\ depth t <= 2 /\ nodes t <= m /\ nodes t = n_nodes x /\ (tv 0 (LL lg hz ev) u t <= n_val x)%Q /\ filled hz ev u t r.
  Proof.
    intros Hwf HB Hfx. destruct (HB x eq_refl) as (t0 & (W1 & W2 & W3) & D0 & M0). destruct t0 as [|f0 l0 r0]; [destruct W3; congruence|]. destruct W3 as (E1 & E2 & E3). assert (f0 = f) by congruence. subst f0. clear E1.
    cbn [tokm] in W1. destruct W1 as (Hf & Tl & Tr). cbn [depth nodes] in D0, M0. cbn [tv] in W2.
    pose proof (tv_nonneg 0 (LL lg hz ev) (Qle_refl 0) (LL_nonneg lg hz ev) l0 (split_left f u)) as P1. pose proof (tv_nonneg 0 (LL lg hz ev) (Qle_refl 0) (LL_nonneg lg hz ev) r0 (split_right f u)) as P2. assert (Hx0 : (0 <= n_val x)%Q) by lra.
    assert (G : forall s t1, tokm nf mls NN (sd s f u) t1 -> depth t1 <= 1 -> (tv 0 (LL lg hz ev) (sd s f u) t1 <= n_val x)%Q -> exists p, su_best_child lg nf mls x (su_rec lg hz ev nf f u) f s (nodes t1) = Some p /\ ok_child f u s (nodes t1) p /\ (fst p <= tv 0 (LL lg hz ev) (sd s f u) t1)%Q).
    { intros s t1 T1 D1 V1. destruct t1 as [a|g [a|] [c|]]; cbn [depth] in D1; try lia.
      - cbn [nodes]. destruct (child_leaf x f u s Hwf Hf Hx0 T1 V1) as (p & A & C). exists p. split; [exact A|]. split; [exact C|]. destruct C as (t2 & _ & N2 & _ & Q2 & _). destruct t2; [|discriminate]. cbn [tv] in *. lra.
      - cbn [nodes Nat.add] in *. apply (child_split x f u s Hwf Hf Hx0 (Split g (Leaf a) (Leaf c)) eq_refl T1 V1). }
    destruct (G false l0 Tl ltac:(lia)) as ([ql rl] & A1 & (tl & B1 & B2 & B3 & B4 & B5) & C1); [cbn [sd]; lra|]. destruct (G true r0 Tr ltac:(lia)) as ([qr rr] & A2 & (tr & F1 & F2 & F3 & F4 & F5) & C2); [cbn [sd]; lra|].
    cbn [fst snd sd] in *. rewrite <- E2 in A1. rewrite <- E3 in A2. exists (RSplit f rl rr), (Split f tl tr). split; [unfold su_construct; rewrite Hfx, A1, A2; reflexivity|].
    assert (T : tokm nf mls NN u (Split f tl tr)) by (cbn [tokm]; auto). split; [exact T|]. split; [cbn [depth]; lia|]. split; [cbn [nodes]; lia|]. split; [unfold n_nodes; rewrite Hfx; cbn [nodes]; lia|]. split; [|cbn [filled]; auto].
    cbn [tv] in *. lra.
  Qed.
End Build.
