(** With the clock switched off and the trivial upper bound a call of the search always
    returns a solution, whatever earlier calls (even timed-out ones) left in the caches. *)
From Coq Require Import List Arith Bool Lia ZArith.
From Verif Require Import Model_FeatureVector Model_Data Model_Node Model_Cache Model_Terminal Model_Solver
  Spec_Tree Proofs_View Proofs_Diff Proofs_Feature Proofs_Calc Proofs_Base Proofs_Terminal Proofs_TermState Proofs_Cache Proofs_Search.
Import ListNotations.
Local Open Scope nat_scope.

Lemma add_sol_le a b : (nd_sol (add_sol a b) <= nd_sol a)%Z.
Proof. unfold add_sol. destruct (nd_sol b <? nd_sol a)%Z eqn:E; [apply Z.ltb_lt in E|]; lia. Qed.
Lemma add_sol_either a b : add_sol a b = a \/ add_sol a b = b.
Proof. unfold add_sol. destruct (_ <? _)%Z; auto. Qed.

Section NonEmpty.
  Context (T : task) (G : cfg) (HT : good_task T) (root : view) (N : nat).
  Notation nf := (c_nf G).
  Notation mls := (c_mls G).
  Notation cost := (tree_cost (tk_inst T)).
  Notation worst := (tk_worst T).
  Notation V b := (restrict b root).
  Hypothesis Hids : ids_ok N root.
  Hypothesis Hsorted : view_sorted root.
  Hypothesis Hwf : wf_view nf root.
  Hypothesis Hmls : 1 <= mls.
  Hypothesis Hworst : within T root.
  Hypothesis Hnl : 1 <= num_labels root.

  Definition rng (z : Z) : Prop := (0 <= z <= worst)%Z.
  Definition E2 (v : view) (e : entry) : Prop :=
    rng (nd_sol (e_lb e)) /\ (e_is_opt e = true -> rng (nd_sol (e_opt e))).
  Definition K (s : st) : Prop :=
    Inv N root E2 (s_c s) /\ forall d v b, In (v, b) (s_ar s d) -> v = V b.

  Lemma cost_rng b t : rng (cost (V b) t).
  Proof.
    split; [apply cost_nonneg; exact HT|]. pose proof (cost_lt_worst T HT root Hworst b t). lia.
  Qed.
  Lemma worst_pos : (0 <= worst)%Z.
  Proof. destruct (cost_rng [] (Leaf 0)). lia. Qed.
  Lemma rng0 : rng 0.
  Proof. split; [lia|apply worst_pos]. Qed.
  Lemma rngw : rng worst.
  Proof. split; [apply worst_pos|lia]. Qed.
  Lemma wit_rng b d r : wit T G (V b) d r -> rng (nd_sol r).
  Proof. intro H. apply wit_tree in H. destruct H as (t & _ & <-). apply cost_rng. Qed.
  Lemma rng_max a b : rng (nd_sol a) -> (nd_sol b <= worst)%Z -> rng (nd_sol (add_sol_inv a b)).
  Proof. unfold rng, add_sol_inv. destruct (_ <? _)%Z eqn:E; [apply Z.ltb_lt in E|]; lia. Qed.
  Lemma rng_min a b : rng (nd_sol a) -> rng (nd_sol b) -> rng (nd_sol (add_sol a b)).
  Proof. intros. destruct (add_sol_either a b) as [->| ->]; assumption. Qed.
  Lemma zsub_le a b : (a <= worst)%Z -> (0 <= b)%Z -> rng (zsub a b).
  Proof. unfold rng, zsub. pose proof worst_pos. lia. Qed.

  Lemma K_upd c b lb d n : Inv N root E2 c -> (nd_sol lb <= worst)%Z -> Inv N root E2 (c_upd_lb T c (V b) b lb d n).
  Proof.
    intros HI Hlb. apply Inv_upd_lb; [exact Hids|exact HI| |].
    - split; cbn [e_upd_lb new_entry e_lb e_opt]; [apply rng_max; [apply rng0|exact Hlb]|discriminate].
    - intros e [H1 H2] _ _. split; cbn [e_upd_lb e_lb e_opt]; [apply rng_max; assumption|exact H2].
  Qed.
  Lemma K_put c b sol d n : Inv N root E2 c -> is_empty sol = false -> rng (nd_sol sol) -> Inv N root E2 (c_store c (V b) b sol d n).
  Proof.
    intros HI He Hr. apply Inv_store; [exact Hids|exact HI|exact He|]. intros db nb _ _. split; cbn [e_lb e_opt]; auto.
  Qed.
  Lemma K_cached c b d n : Inv N root E2 c -> rng (nd_sol (c_retrieve T c (V b) b d n)).
  Proof.
    intro HI. destruct (retrieve_entry T N root E2 c b d n HI) as [H|(H & e & [_ He] & _ & _ & Ho & Hr)].
    - rewrite H. apply rngw.
    - rewrite Hr. auto.
  Qed.
  Lemma K_lb c b d n : Inv N root E2 c -> rng (nd_sol (Model_Cache.c_lb c (V b) b d n)).
  Proof.
    intro HI. destruct (lb_entry N root E2 c b d n HI) as [->|(e & [He _] & _ & _ & ->)]; [apply rng0|exact He].
  Qed.
  Lemma K_compute s b d n : K s -> rng (nd_sol (compute_lb T G s (V b) b d n)).
  Proof.
    intros [HI _]. unfold compute_lb. rewrite (gt_lb T HT), (gt_sparse T HT).
    destruct (Model_Solver.c_lb G); [|apply rng0].
    apply rng_max; [|cbn; apply worst_pos]. apply rng_max; [apply rng0|]. apply K_lb. exact HI.
  Qed.
  Lemma K_c s s' : s_c s' = s_c s -> s_ar s' = s_ar s -> K s -> K s'.
  Proof. unfold K. intros -> ->. auto. Qed.
  Lemma K_set_c s c : K s -> Inv N root E2 c -> K (set_c s c).
  Proof. unfold K. cbn [set_c s_c s_ar]. tauto. Qed.
  Lemma K_time s ok s' : in_time G s = (ok, s') -> K s -> K s'.
  Proof.
    unfold in_time. destruct (s_on s); intros H; injection H as <- <-; [|auto]. apply K_c; reflexivity.
  Qed.
  Lemma time_off s : s_on s = false -> in_time G s = (true, s).
  Proof. intro H. unfold in_time. rewrite H. reflexivity. Qed.

  Lemma sim_nonneg old new : (0 <= sim_amount T old new)%Z.
  Proof.
    unfold sim_amount. pose proof (fun k => wc_nonneg T HT k) as Hn. unfold wc in Hn. destruct (tk_sim T) as [w|].
    { unfold sim_custom. assert (H : forall v a, (0 <= a)%Z -> (0 <= fold_left (fun a xs => fold_left (fun a x => a + w x) xs a) v a)%Z).
      { induction v as [|xs v IH]; intros a Ha; cbn [fold_left]; [exact Ha|]. apply IH. revert a Ha.
        induction xs as [|x xs IHx]; intros a Ha; cbn [fold_left]; [exact Ha|]. apply IHx. specialize (Hn 0 x). lia. }
      apply H. lia. }
    generalize (num_labels new) (diff_metrics old new). intros nl m.
    unfold sim_subtract. assert (H : forall l a, (0 <= a)%Z ->
      (0 <= fold_left (fun a k => a + tk_wpl T k * Z.of_nat (snd (nth k m (0%nat, 0%nat)))) l a)%Z).
    { induction l as [|k l IH]; intros a Ha; cbn [fold_left]; [exact Ha|]. apply IH.
      pose proof (Hn k (Inst 0 (fv_make []))). nia. }
    apply H. lia.
  Qed.

  Lemma K_sim_loop b d n ar : forall c lb, Inv N root E2 c -> rng (nd_sol lb) -> (forall ev eb, In (ev, eb) ar -> ev = V eb) ->
    forall lb' o c', sim_loop T ar (V b) b d n c lb = (lb', o, c') -> Inv N root E2 c' /\ rng (nd_sol lb').
  Proof.
    induction ar as [|[ev eb] ar IH]; intros c lb HI Hlb Har lb' o c'; cbn [sim_loop].
    - intro H. injection H as <- <- <-. auto.
    - assert (Har' : forall ev eb, In (ev, eb) ar -> ev = V eb) by (intros; apply Har; right; assumption).
      rewrite (Har ev eb (or_introl eq_refl)).
      destruct (3 * vsize (V b) <? 2 * vsize (V eb)); [apply IH; assumption|].
      destruct (sim_skip T (V eb) (V b)); [apply IH; assumption|].
      match goal with |- context [add_sol_inv lb ?x] => set (e := x) end.
      assert (He : rng (nd_sol e)).
      { cbn [e nd_sol]. apply zsub_le; [apply K_lb; exact HI|apply sim_nonneg]. }
      assert (Hm : rng (nd_sol (add_sol_inv lb e))) by (apply rng_max; [exact Hlb|apply He]).
      destruct (total_difference (diff_metrics (V eb) (V b)) =? 0) eqn:Et.
      + apply Nat.eqb_eq, total_difference_zero in Et; [|exact Hsorted].
        assert (HI' : Inv N root E2 (c_transfer T c eb b)) by (apply Inv_transfer; assumption).
        destruct (c_is_optimal (c_transfer T c eb b) (V b) b d n).
        * intro H. injection H as <- <- <-. auto.
        * apply IH; assumption.
      + apply IH; assumption.
  Qed.

  Lemma K_update_sim s b d n u s' : K s -> update_sim T G s (V b) b d n = (u, s') -> K s'.
  Proof.
    intros HS. unfold update_sim. destruct (c_sim G).
    - destruct (sim_loop T (s_ar s d) (V b) b d n (s_c s) init_lb) as [[lb o] c] eqn:El.
      destruct HS as [HI HA].
      destruct (K_sim_loop b d n (s_ar s d) (s_c s) init_lb HI rng0 (fun ev eb Hin => HA d ev eb Hin) lb o c El) as [HI' Hlb].
      assert (HS' : K (set_c s c)) by (apply K_set_c; [split; assumption|assumption]).
      destruct (is_empty lb); [intro H; injection H as <- <-; assumption|].
      destruct o; [intro H; injection H as <- <-; assumption|].
      destruct (tk_eq T 0 (nd_sol lb)); intro H; injection H as <- <-; [assumption|].
      apply K_set_c; [exact HS'|]. apply K_upd; [apply HS'|apply Hlb].
    - intro H. injection H as <- <-. exact HS.
  Qed.

  Lemma K_archive s b d : K s -> K (update_archive G s (V b) b d).
  Proof.
    intros [HI HA]. unfold update_archive. destruct (c_sim G); [|split; assumption].
    split; [exact HI|]. intros d' v b' Hin. cbn [set_ar s_ar] in Hin.
    destruct (d' =? d); [|eapply HA; exact Hin].
    destruct (length (s_ar s d) <? 2).
    - apply in_app_or in Hin. destruct Hin as [Hin|[Hin|[]]]; [eapply HA; exact Hin|]. injection Hin as <- <-. reflexivity.
    - apply In_set_nth in Hin. destruct Hin as [Hin|Hin]; [injection Hin as -> ->; reflexivity|eapply HA; exact Hin].
  Qed.

  (** The leaf solver. *)
  Lemma leaf_rng b ub : mls <= vsize (V b) -> (nd_sol ub <= worst)%Z ->
    rng (nd_sol (fst (solve_leaf T G (V b) ub))) /\ (nd_sol (snd (solve_leaf T G (V b) ub)) <= worst)%Z
    /\ (nd_sol ub = worst -> is_empty (fst (solve_leaf T G (V b) ub)) = false).
  Proof.
    intros Hsz Hub. destruct (solve_leaf_spec T G HT root Hworst b ub Hsz) as [(l & Hl & Hf & _ & Hu & Hn)|(Hf & Hs & Hno)].
    - rewrite Hf in *. cbn [leaf_node nd_sol] in *. split; [apply cost_rng|]. split; [|reflexivity].
      destruct (c_ub G) eqn:Ec; [destruct (Hu eq_refl) as [-> H]; pose proof (cost_rng b (Leaf l)) as [_ ?]; lia|rewrite Hn by reflexivity; exact Hub].
    - rewrite Hf, Hs. split; [apply rngw|]. split; [exact Hub|]. intro Hw. exfalso.
      destruct (Hno 0) as [_ Hx]; [unfold num_labels, restrict in *; rewrite map_length; lia|].
      pose proof (cost_lt_worst T HT root Hworst b (Leaf 0)). lia.
  Qed.

  Lemma K_store_term c b ub sol d n : Inv N root E2 c -> (nd_sol ub <= worst)%Z -> rng (nd_sol sol) ->
    Inv N root E2 (store_term T c (V b) b ub sol d n).
  Proof.
    intros HI Hub Hs. unfold store_term. destruct (c_is_optimal c (V b) b d n); [exact HI|].
    destruct (is_empty sol) eqn:E; [apply K_upd; assumption|apply K_put; assumption].
  Qed.

  Lemma K_terminal b ub d n s r s' : mls <= vsize (V b) -> K s -> 1 <= n -> (nd_sol ub <= worst)%Z ->
    solve_terminal T G (V b) b ub d n s = (r, s') ->
    K s' /\ rng (nd_sol r) /\ (nd_sol ub = worst -> is_empty r = false).
  Proof.
    intros Hsz HK Hn Hub. unfold solve_terminal. set (R := term_solve T nf mls (V b) b n). intro H. injection H as <- <-.
    assert (Hwv : wf_view nf (V b)) by (apply wf_restrict; exact Hwf).
    assert (Hnl' : 1 <= num_labels (V b)) by (unfold num_labels, restrict in *; rewrite map_length; exact Hnl).
    pose proof (cost_lt_worst T HT root Hworst b) as Hlt.
    assert (Hbl : forall f, br_has b f = true -> vsize (split_left f (V b)) = 0 \/ vsize (split_right f (V b)) = 0)
      by (intros f Hf; apply br_has_empty; exact Hf).
    destruct (term_one T G HT (V b) b Hmls Hlt Hwv Hnl' Hsz n ltac:(lia)) as (A1 & _). fold R in A1.
    assert (B : (rng (nd_sol (r_two R)) /\ rng (nd_sol (r_three R)))
      /\ (n = 1 \/ (is_empty (r_two R) = false /\ is_empty (r_three R) = false))).
    { destruct (Nat.eq_dec n 1) as [E1|E1].
      - subst R. rewrite E1. destruct (term_n1 T G (V b) b) as [-> ->]. split; [split; apply rngw|auto].
      - destruct (term_wits T G HT (V b) b Hmls Hlt Hbl Hwv Hnl' Hsz n ltac:(lia)) as (W1 & _ & W3 & _). fold R in W1, W3.
        split; [split; eapply wit_rng; eassumption|]. right. split; eapply wit_nonempty; eassumption. }
    destruct B as [[B1 B2] B3]. pose proof (wit_rng _ _ _ A1) as R1. pose proof (wit_nonempty _ _ _ _ _ A1) as Z1.
    destruct HK as [HI HA]. split.
    - apply K_archive. apply K_set_c; [split; assumption|]. repeat apply K_store_term; assumption.
    - set (res := match n with 0 => r_three R | 1 => r_one R | 2 => r_two R | _ => r_three R end).
      assert (Hres : rng (nd_sol res) /\ is_empty res = false).
      { unfold res. destruct n as [|[|[|n]]]; [lia|auto| |]; (destruct B3 as [B3|[B3 B4]]; [lia|auto]). }
      destruct (tk_sdom T (nd_sol ub) (nd_sol res)) eqn:E.
      + split; [apply rngw|]. intro Hw. apply (gt_sdom T HT) in E. destruct Hres as [[? ?] _]. lia.
      + split; [apply Hres|]. intros _. apply Hres.
  Qed.

  Definition necontract (fuel : nat) (rec : solver_fun) : Prop :=
    forall b ub d n s r s', d < fuel -> mls <= vsize (V b) -> K s -> (nd_sol ub <= worst)%Z ->
    rec (V b) b ub d n s = (r, s') ->
    K s' /\ rng (nd_sol r) /\ (s_on s = false -> nd_sol ub = worst -> is_empty r = false).

  Definition LK (L : loop) : Prop :=
    K (l_st L) /\ (nd_sol (l_ub L) <= worst)%Z /\ rng (nd_sol (l_sols L)) /\ (nd_sol (l_inf L) <= worst)%Z.

  Section Step.
    Context (fuel : nat) (rec : solver_fun) (Hrc : necontract fuel rec).

    Lemma LK_time L ok s' : in_time G (l_st L) = (ok, s') -> LK L -> LK (with_st L s').
    Proof. intros H (H1 & H2). split; [|exact H2]. cbn [with_st l_st]. eapply K_time; eassumption. Qed.
    Lemma LK_st L s' : LK L -> K s' -> LK (with_st L s').
    Proof. intros (H1 & H2) H. split; [exact H|exact H2]. Qed.
    Lemma LK_inf L lb s' : LK L -> K s' -> LK (with_inf L lb s').
    Proof.
      intros (H1 & H2 & H3 & H4) H. split; [exact H|]. cbn [with_inf l_ub l_sols l_inf].
      split; [exact H2|]. split; [exact H3|]. pose proof (add_sol_le (l_inf L) lb). lia.
    Qed.

    Lemma sub_ubs ub sols cur : (nd_sol ub <= worst)%Z -> (0 <= nd_sol sols)%Z -> (nd_sol cur <= worst)%Z ->
      (nd_sol (subtract_ubs T G ub sols cur 0) <= worst)%Z.
    Proof.
      intros H1 H2 H3. unfold subtract_ubs. destruct (c_ub G); cbn [value_node nd_sol]; [|exact H1].
      apply zsub_le; [|lia]. pose proof (gt_md T HT). destruct (tk_dom T (nd_sol cur) (nd_sol ub)); apply zsub_le; lia.
    Qed.

    Lemma K_size_step d n f sw lbr rbr L ls L' stop : d <= fuel -> 1 <= d ->
      mls <= vsize (V lbr) -> mls <= vsize (V rbr) -> LK L ->
      size_step T G rec d n f 0 sw (V lbr) lbr (V rbr) rbr L ls = (L', stop) ->
      LK L' /\ (is_empty (l_sols L) = false -> is_empty (l_sols L') = false).
    Proof.
      intros Hd Hd1 Sl Sr HL. unfold size_step.
      set (rs := n - ls - 1). set (ld := Nat.min (d - 1) ls). set (rd := Nat.min (d - 1) rs).
      pose proof HL as (H1 & H2 & H3 & H4).
      destruct (lr_lb T G (l_st L) f 0 (V lbr) lbr ld ls (V rbr) rbr rd rs) as [[lb llb] rlb] eqn:Elb.
      assert (Hrlb : (0 <= nd_sol rlb)%Z).
      { unfold lr_lb in Elb. destruct (Model_Solver.c_lb G); injection Elb as _ _ <-; [apply K_compute; exact H1|cbn; lia]. }
      destruct (c_ub G && _); [intro H; injection H as <- <-; split; [apply LK_inf; assumption|auto]|].
      destruct (tk_eq T (nd_sol lb) (nd_sol (l_sols L))); [intro H; injection H as <- <-; auto|].
      destruct (rec (V lbr) lbr _ ld ls (l_st L)) as [lsol s1] eqn:E1.
      destruct (Hrc lbr _ ld ls _ _ _ ltac:(unfold ld; lia) Sl H1 (sub_ubs _ _ _ H2 Hrlb (proj2 H3)) E1) as (K1 & R1 & _).
      destruct (in_time G s1) as [ok s1'] eqn:Et1. pose proof (K_time _ _ _ Et1 K1) as K1'.
      destruct ok; cbn [negb]; [|intro H; injection H as <- <-; split; [apply LK_st; assumption|auto]].
      destruct (is_empty lsol) eqn:Ee1.
      { destruct (lr_lb T G s1' f 0 _ _ _ _ _ _ _ _) as [[lb' l1] l2]. intro H; injection H as <- <-. split; [apply LK_inf; assumption|auto]. }
      destruct (rec (V rbr) rbr _ rd rs s1') as [rsol s2] eqn:E3.
      destruct (Hrc rbr _ rd rs _ _ _ ltac:(unfold rd; lia) Sr K1' (sub_ubs _ _ _ H2 (proj1 R1) (proj2 H3)) E3) as (K2 & R2 & _).
      destruct (in_time G s2) as [ok2 s2'] eqn:Et2. pose proof (K_time _ _ _ Et2 K2) as K2'.
      destruct ok2; cbn [negb]; [|intro H; injection H as <- <-; split; [apply LK_st; assumption|auto]].
      destruct (is_empty rsol) eqn:Ee2.
      { destruct (lr_lb T G s2' f 0 _ _ _ _ _ _ _ _) as [[lb' l1] l2]. intro H; injection H as <- <-. split; [apply LK_inf; assumption|auto]. }
      set (new := if sw then combine_sols T f rsol lsol 0 else combine_sols T f lsol rsol 0).
      assert (Hnew : (0 <= nd_sol new)%Z /\ is_empty new = false).
      { unfold new. destruct R1, R2. destruct sw; rewrite (combine0 T _ _ _ HT); cbn [branch_node nd_sol is_empty nd_feat]; split; try reflexivity; lia. }
      destruct (c_ub G && _); [intro H; injection H as <- <-; split; [apply LK_inf; assumption|auto]|].
      intro H; injection H as <- <-. cbn [l_sols]. split.
      - split; [exact K2'|]. cbn [l_ub l_sols l_inf]. split.
        + unfold upd_ub. destruct (c_ub G); [|exact H2]. pose proof (add_sol_le (l_ub L) new). lia.
        + split; [|exact H4]. destruct (tk_sdom T (nd_sol new) (nd_sol (l_sols L))) eqn:El; [|exact H3]. apply (gt_sdom T HT) in El.
          destruct H3, Hnew. split; lia.
      - intro He. destruct (tk_sdom T (nd_sol new) (nd_sol (l_sols L))); [apply Hnew|exact He].
    Qed.

    Lemma K_size_loop d n f sw lbr rbr sizes : d <= fuel -> 1 <= d ->
      mls <= vsize (V lbr) -> mls <= vsize (V rbr) -> forall L, LK L ->
      let L' := size_loop (size_step T G rec d n f 0 sw (V lbr) lbr (V rbr) rbr) L sizes in
      LK L' /\ (is_empty (l_sols L) = false -> is_empty (l_sols L') = false).
    Proof.
      intros Hd Hd1 Sl Sr. induction sizes as [|k sizes IH]; intros L HL; cbn [size_loop]; [auto|].
      destruct (size_step T G rec d n f 0 sw (V lbr) lbr (V rbr) rbr L k) as [L1 stop] eqn:Es.
      destruct (K_size_step _ _ _ _ _ _ _ _ _ _ Hd Hd1 Sl Sr HL Es) as [A1 A2].
      destruct stop; [auto|]. destruct (IH L1 A1) as [B1 B2]. auto.
    Qed.

    Lemma K_feature b d n f L L' : d <= fuel -> 1 <= d -> LK L -> feature_step T G rec (V b) b d n f L = Some L' ->
      LK L' /\ (is_empty (l_sols L) = false -> is_empty (l_sols L') = false).
    Proof.
      intros Hd Hd1 HL. unfold feature_step, get_bc. rewrite (gt_sparse T HT), (gt_bc T HT). cbn [andb].
      destruct (br_has b f || negb (tk_may T f) || c_redundant G f); [intro H; injection H as <-; auto|].
      destruct (negb (sat_mls G (split_left f (V b)) 1) || negb (sat_mls G (split_right f (V b)) 1)) eqn:Em;
        [intro H; injection H as <-; auto|].
      apply orb_false_iff in Em. destruct Em as [Em1 Em2]. apply negb_false_iff in Em1, Em2. unfold sat_mls in Em1, Em2.
      apply Nat.leb_le in Em1, Em2. rewrite Nat.mul_1_r in Em1, Em2.
      rewrite restrict_left, restrict_right in *.
      destruct (_ <? _); intro H; injection H as <-; apply K_size_loop; assumption.
    Qed.

    Lemma K_feature_loop b d n blb fs : d <= fuel -> 1 <= d -> forall L, LK L ->
      let L' := feature_loop T G rec (V b) b d n blb L fs in
      LK L' /\ (is_empty (l_sols L) = false -> is_empty (l_sols L') = false).
    Proof.
      intros Hd Hd1. induction fs as [|f fs IH]; intros L HL; cbn [feature_loop]; [auto|].
      destruct (in_time G (l_st L)) as [ok s] eqn:Et. pose proof (LK_time _ _ _ Et HL) as HL'.
      destruct ok; cbn [negb]; [|split; [exact HL'|auto]].
      destruct (Model_Solver.c_lb G && _); [split; [exact HL'|auto]|].
      destruct (Model_Solver.c_lb G && c_ub G && _); [split; [exact HL'|auto]|].
      destruct (feature_step T G rec (V b) b d n f (with_st L s)) as [L1|] eqn:Ef; [|split; [exact HL'|auto]].
      destruct (K_feature _ _ _ _ _ _ Hd Hd1 HL' Ef) as [A1 A2]. destruct (IH L1 A1) as [B1 B2].
      split; [exact B1|]. intro He. apply B2, A2. exact He.
    Qed.

    Lemma K_general b ub d n s r s' : d <= fuel -> 1 <= d -> mls <= vsize (V b) -> K s -> (nd_sol ub <= worst)%Z ->
      general_case T G rec (V b) b ub d n s = (r, s') ->
      K s' /\ rng (nd_sol r) /\ (nd_sol ub = worst -> is_empty r = false).
    Proof.
      intros Hd Hd1 Hsz HK Hub. unfold general_case.
      destruct (leaf_rng b ub Hsz Hub) as (A1 & A2 & A3).
      destruct (solve_leaf T G (V b) ub) as [sols ub1]. cbn [fst snd] in *.
      destruct (sat_mls G (V b) 2); cbn [negb]; [|intro H; injection H as <- <-; auto].
      match goal with |- context [match ?m with Some _ => _ | None => (sols, ub1) end] => set (M := match m with Some (ld, ln) =>
          let cached := c_retrieve T (s_c s) (V b) b ld ln in
          if c_ub G && tk_sdom T (nd_sol ub1) (nd_sol cached) then (sols, ub1) else (add_sol sols cached, add_sol ub1 cached) | None => (sols, ub1) end) end.
      assert (HM : rng (nd_sol (fst M)) /\ (nd_sol (snd M) <= worst)%Z /\ (nd_sol ub = worst -> is_empty (fst M) = false)).
      { unfold M. destruct (lower_cached _ _ _ _ _) as [[ld ln]|]; [|auto]. cbn zeta.
        destruct (c_ub G && _); [auto|]. cbn [fst snd].
        pose proof (K_cached (s_c s) b ld ln (proj1 HK)) as Hc.
        split; [apply rng_min; assumption|]. split; [pose proof (add_sol_le ub1 (c_retrieve T (s_c s) (V b) b ld ln)); lia|].
        intro Hw. specialize (A3 Hw). unfold add_sol. destruct (nd_sol (c_retrieve T (s_c s) (V b) b ld ln) <? nd_sol sols)%Z eqn:El; [|exact A3].
        destruct (retrieve_entry T N root E2 (s_c s) b ld ln (proj1 HK)) as [Hx|(Hx & _)]; [|exact Hx].
        rewrite Hx in El. apply Z.ltb_lt in El. cbn [init_sol value_node nd_sol] in El. destruct A1. lia. }
      destruct M as [sols1 ub2]. cbn [fst snd] in HM. destruct HM as (M1 & M2 & M3).
      set (L := feature_loop T G rec (V b) b d n _ _ _). intro H. injection H as <- <-.
      destruct (K_feature_loop b d n (compute_lb T G s (V b) b d n) (c_order G (V b)) Hd Hd1 (Loop ub2 sols1 (init_sol T) s)) as [(B1 & B2 & B3 & B4) B5].
      { split; [exact HK|]. cbn [l_ub l_sols l_inf]. split; [exact M2|]. split; [exact M1|]. cbn. lia. }
      fold L in B1, B2, B3, B4, B5. cbn [l_sols] in B5.
      split; [|split; [exact B3|auto]].
      apply K_archive. apply K_set_c; [exact B1|].
      destruct (is_empty (l_sols L)) eqn:Ee; cbn [negb]; [|apply K_put; [apply B1|exact Ee|exact B3]].
      apply K_upd; [apply B1|]. destruct (tk_eq T _ _); [exact Hub|].
      destruct (add_sol_inv_either (l_inf L) ub) as [->| ->]; assumption.
    Qed.
  End Step.

  Theorem solve_sub_nonempty fuel : necontract fuel (solve_sub T G fuel).
  Proof.
    induction fuel as [|fuel IH]; intros b ub d n s r s' Hdf Hsz HK Hub; [lia|]. cbn [solve_sub].
    destruct (in_time G s) as [ok s1] eqn:Ei. pose proof (K_time _ _ _ Ei HK) as HK1.
    destruct ok; cbn [negb].
    2:{ intro H. injection H as <- <-. split; [exact HK1|]. split; [apply rngw|]. intro Ho. rewrite (time_off s Ho) in Ei. discriminate. }
    unfold reduce_budget. rewrite (gt_sparse T HT).
    destruct ((d =? 0) || (n =? 0)) eqn:E0.
    { intro H. injection H as <- <-. destruct (leaf_rng b ub Hsz Hub) as (A1 & _ & A3). auto. }
    apply orb_false_iff in E0. destruct E0 as [E0 E0']. apply Nat.eqb_neq in E0. apply Nat.eqb_neq in E0'.
    destruct (is_empty (c_retrieve T (s_c s1) (V b) b d n)) eqn:Ec; cbn [negb].
    2:{ intro H. injection H as <- <-. split; [exact HK1|]. split; [apply K_cached; apply HK1|auto]. }
    assert (Hcont : forall s2, K s2 ->
      (if c_term G && (d <=? 2) then solve_terminal T G (V b) b ub d n s2
       else general_case T G (solve_sub T G fuel) (V b) b ub d n s2) = (r, s') ->
      K s' /\ rng (nd_sol r) /\ (s_on s = false -> nd_sol ub = worst -> is_empty r = false)).
    { intros s2 HS2. destruct (c_term G && (d <=? 2)); intro H.
      - destruct (K_terminal b ub d n s2 r s' Hsz HS2 ltac:(lia) Hub H) as (B1 & B2 & B3). auto.
      - destruct (K_general fuel (solve_sub T G fuel) IH b ub d n s2 r s' ltac:(lia) ltac:(lia) Hsz HS2 Hub H) as (B1 & B2 & B3). auto. }
    destruct (Model_Solver.c_lb G); [|apply Hcont; exact HK1].
    destruct (update_sim T G s1 (V b) b d n) as [upd s2] eqn:Eu. apply K_update_sim in Eu; [|exact HK1].
    destruct (upd && negb (is_empty (c_retrieve T (s_c s2) (V b) b d n))) eqn:Eu2.
    { intro H. injection H as <- <-. split; [exact Eu|]. split; [apply K_cached; apply Eu|]. intros _ _.
      apply andb_true_iff in Eu2. destruct Eu2 as [_ Eu2]. apply negb_true_iff. exact Eu2. }
    pose proof (K_compute s2 b d n Eu) as Hlb.
    destruct (c_ub G && tk_sdom T (nd_sol ub) (nd_sol (compute_lb T G s2 (V b) b d n))) eqn:Eb.
    { intro H. injection H as <- <-. split; [exact Eu|]. split; [apply rngw|]. intros _ Hw.
      apply andb_true_iff in Eb. destruct Eb as [_ Hlt]. apply (gt_sdom T HT) in Hlt. destruct Hlb. lia. }
    destruct (tk_eq T _ _); [|apply Hcont; exact Eu].
    intro H. injection H as <- <-. destruct (leaf_rng b (init_sol T) Hsz) as (A1 & _ & A3); [cbn; lia|].
    split; [exact Eu|]. split; [exact A1|]. intros _ _. apply A3. reflexivity.
  Qed.
End NonEmpty.
