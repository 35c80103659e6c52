(** Proofs about the search on fronts in every configuration: whatever the switches, the
    solutions that are found are values of allowed trees. *)
From Coq Require Import List Arith Bool ZArith Lia.
From Verif Require Import Model_FeatureVector Model_Data Model_Node Model_Terminal Model_Solver Model_Container Model_Pareto Model_Front.
From Verif Require Import Spec_Tree Proofs_View Proofs_Container Proofs_Pareto Proofs_Diff Proofs_TermState.
Import ListNotations.
Local Open Scope nat_scope.

(** ** Sizes and budgets *)
Lemma pow_min d n : n <= 2 ^ d - 1 -> n <= 2 ^ Nat.min d n - 1.
Proof.
  intros H. destruct (Nat.le_gt_cases d n); [rewrite Nat.min_l by lia; exact H|].
  rewrite Nat.min_r by lia. pose proof (Nat.pow_gt_lin_r 2 n). lia.
Qed.

Lemma budgets_ok dp nds all p : In p (p_budgets dp nds all) -> nds <= 2 ^ dp - 1 ->
  fst p <= Nat.min dp nds /\ snd p <= nds /\ fst p <= snd p /\ snd p <= 2 ^ fst p - 1.
Proof.
  intros Hp Hn. unfold p_budgets in Hp. destruct ((if all then 1 else nds) =? 1).
  - apply in_map_iff in Hp. destruct Hp as (n & <- & Hi). apply in_seq in Hi. cbn.
    pose proof (pow_min dp n). lia.
  - apply in_map_iff in Hp. destruct Hp as (d & <- & Hi). apply in_seq in Hi. cbn [fst snd].
    pose proof (Nat.pow_gt_lin_r 2 d). lia.
Qed.

Lemma budgets_last dp nds all : 1 <= nds -> nds <= 2 ^ dp - 1 ->
  exists p, In p (p_budgets dp nds all) /\ last (p_budgets dp nds all) (dp, 0) = p /\
    fst p = Nat.min dp nds /\ snd p = nds.
Proof.
  intros H1 H2. unfold p_budgets. destruct ((if all then 1 else nds) =? 1).
  - assert (E : seq 1 nds = seq 1 (nds - 1) ++ [nds]).
    { replace nds with (Datatypes.S (nds - 1)) at 1 by lia. rewrite seq_S. do 2 f_equal. lia. }
    rewrite E, map_app. cbn [map].
    eexists. split; [apply in_or_app; right; left; reflexivity|]. rewrite last_app_one. cbn. auto.
  - set (md := Nat.min dp nds).
    replace (Datatypes.S md - Nat.min 2 md) with (Datatypes.S (md - Nat.min 2 md)) by lia.
    rewrite seq_S, map_app. cbn [map].
    eexists. split; [apply in_or_app; right; left; reflexivity|]. rewrite last_app_one. cbn [fst snd]. split; [reflexivity|].
    replace (Nat.min 2 md + (md - Nat.min 2 md)) with md by lia. split; [reflexivity|].
    pose proof (pow_min dp nds H2). fold md in H. lia.
Qed.

(** ** Containers only hold what was added *)
Section Sub.
  Context {S P : Type} (eqb dom : S -> S -> bool).
  Lemma ct_add_sub ck (c : cont S P) x y : In y (ct_sols (ct_add eqb dom ck c x)) -> y = x \/ In y (ct_sols c).
  Proof.
    unfold ct_add. destruct (ct_sols c) as [|z l] eqn:E.
    - cbn. intros [<-|[]]. left. reflexivity.
    - rewrite <- E. destruct (u_test _ _ _ _); [|auto].
      destruct (existsb _ _); cbn; [auto|]. intros H. apply in_app_or in H. destruct H as [H|[<-|[]]]; [|auto].
      apply filter_In in H. right. apply H.
  Qed.
  Lemma ct_filter_sub n (c : cont S P) y : In y (ct_sols (ct_filter n c)) -> In y (ct_sols c) /\ cs_nodes y <= n.
  Proof. cbn. intros H. apply filter_In in H. destruct H as [H E]. apply negb_true_iff, Nat.ltb_ge in E. auto. Qed.
End Sub.

Section Caches.
  Context (T : ftask) (G : fcfg) (root : view) (N : nat).
  Notation P := (ft_p T).
  Notation front := (cont (pt_S P) ptag).
  Notation sub b := (restrict b root).
  (** What is known about a stored front. *)
  Variable Q : view -> nat -> nat -> front -> Prop.
  Hypothesis Hids : ids_ok N root.
  Hypothesis Qclear : forall u d n c, Q u d n c -> Q u d n (ct_clear c).

  Definition E (u : view) (e : fentry T) : Prop :=
    forall c, fe_opt T e = Some c -> Q u (fe_d T e) (fe_n T e) c.

  Definition KInv (c : fcache T) : Prop :=
    fk_n T c = N /\ (forall b, Forall (E (sub b)) (kb_get T c b)) /\ (forall b, Forall (E (sub b)) (kd_get T c (sub b))).

  Section Assoc.
    Context {K : Type} (keqb : K -> K -> bool).
    Hypothesis Hk : forall a b, keqb a b = true <-> a = b.
    Lemma fget_fset k es m k' : fget T keqb k' (fset T keqb k es m) = if keqb k' k then es else fget T keqb k' m.
    Proof.
      unfold fget. induction m as [|[k0 es0] m IH]; cbn.
      - destruct (keqb k' k); reflexivity.
      - destruct (keqb k k0) eqn:E1; cbn.
        + apply Hk in E1. subst k0. destruct (keqb k' k); reflexivity.
        + destruct (keqb k' k0) eqn:E2; [|exact IH].
          destruct (keqb k' k) eqn:E3; [|reflexivity]. apply Hk in E2, E3. subst k0 k'.
          rewrite (proj2 (Hk k k) eq_refl) in E1. discriminate.
    Qed.
  End Assoc.

  Lemma KInv_kb c b es : KInv c -> Forall (E (sub b)) es -> KInv (kb_set T c b es).
  Proof.
    intros (H1 & H2 & H3) Hes. split; [exact H1|]. split; [|exact H3]. intro b'. unfold kb_get, kb_set. cbn [fk_branch].
    rewrite fget_fset by apply br_eqb_eq.
    destruct (br_eqb b' b) eqn:Eb; [|apply H2]. apply br_eqb_eq in Eb. subst b'. exact Hes.
  Qed.

  Lemma KInv_kd c b es : KInv c -> Forall (E (sub b)) es -> KInv (kd_set T c (sub b) es).
  Proof.
    intros (H1 & H2 & H3) Hes. split; [exact H1|]. split; [exact H2|]. intro b'. unfold kd_get, kd_set. cbn [fk_data fk_n].
    rewrite fget_fset by apply bits_eqb_eq. rewrite H1.
    destruct (bits_eqb _ _) eqn:Eb; [|rewrite <- H1; apply H3]. apply bits_eqb_eq in Eb.
    rewrite (dkey_restrict_eq N root b' b Hids Eb). exact Hes.
  Qed.

  Lemma fe_is_true d n e : fe_is T d n e = true -> fe_d T e = d /\ fe_n T e = n.
  Proof. unfold fe_is. intro H. apply andb_true_iff in H. rewrite !Nat.eqb_eq in H. tauto. Qed.

  Lemma E_store u es c d n : Forall (E u) es -> Q u d n c -> Forall (E u) (fes_store T es c d n).
  Proof.
    intros H Hc. unfold fes_store. destruct (existsb _ _).
    - apply Forall_forall. intros e He. apply in_map_iff in He. destruct He as (e0 & <- & He0).
      rewrite Forall_forall in H. destruct (_ && _); [|auto]. intros c' Ec. cbn in *. injection Ec as <-. exact Hc.
    - apply Forall_app. split; [exact H|]. repeat constructor. intros c' Ec. cbn in *. injection Ec as <-. exact Hc.
  Qed.

  Lemma E_upd_lb u g es lb d n : Forall (E u) es -> Forall (E u) (fes_upd_lb T g es lb d n).
  Proof.
    induction 1 as [|e es He Hes IH]; cbn.
    - repeat constructor. intros c Ec. discriminate.
    - destruct (fe_is T d n e); constructor; auto. destruct (_ && _); [exact He|]. intros c Ec. apply He. exact Ec.
  Qed.

  Lemma KInv_store c b x d n : KInv c -> Q (sub b) d n x -> KInv (k_store T G c (sub b) b x d n).
  Proof.
    intros HI Hx. apply Qclear in Hx. unfold k_store.
    set (c1 := if fc_branch G then _ else c).
    assert (H1 : KInv c1). { unfold c1. destruct (fc_branch G); [|exact HI]. apply KInv_kb; [exact HI|]. apply E_store; [apply HI|exact Hx]. }
    cbn zeta. destruct (fc_data G); [|exact H1]. apply KInv_kd; [exact H1|]. apply E_store; [apply H1|exact Hx].
  Qed.

  Lemma KInv_upd_lb c b lb d n : KInv c -> KInv (k_upd_lb T G c (sub b) b lb d n).
  Proof.
    intros HI. unfold k_upd_lb. destruct (fc_lb G); [|exact HI].
    set (c1 := if fc_branch G then _ else c).
    assert (H1 : KInv c1). { unfold c1. destruct (fc_branch G); [|exact HI]. apply KInv_kb; [exact HI|]. apply E_upd_lb, HI. }
    cbn zeta. destruct (fc_data G); [|exact H1]. apply KInv_kd; [exact H1|]. apply E_upd_lb, H1.
  Qed.

  Lemma ftransfer_one_all u e dst : E u e -> Forall (E u) dst -> Forall (E u) (snd (ftransfer_one T e dst)).
  Proof.
    intros He. induction 1 as [|x dst Hx Hd IH]; cbn; [constructor|].
    destruct (fe_is _ _ _ x).
    - destruct (_ || _); cbn; [constructor; assumption|]. destruct (ftransfer_one T e dst) as [a r]. cbn in *. constructor; assumption.
    - destruct (ftransfer_one T e dst) as [a r]. cbn in *. constructor; assumption.
  Qed.

  Lemma transfer_all u src : forall dst, Forall (E u) src -> Forall (E u) dst -> Forall (E u) (fold_left (ftransfer_step T) src dst).
  Proof.
    induction src as [|e src IH]; intros dst Hs Hd; cbn [fold_left]; [exact Hd|].
    inversion Hs; subst. apply IH; [assumption|]. unfold ftransfer_step.
    pose proof (ftransfer_one_all u e dst ltac:(assumption) Hd) as H. destruct (ftransfer_one T e dst) as [a d']. cbn [snd] in H.
    destruct a; [|exact H]. apply Forall_app. split; [exact H|repeat constructor; assumption].
  Qed.

  Lemma KInv_transfer c bs bd : KInv c -> sub bs = sub bd -> KInv (k_transfer T G c bs bd).
  Proof.
    intros HI Hv. unfold k_transfer. destruct (_ || _ || _); [exact HI|].
    pose proof HI as (_ & Hb & _).
    destruct (flookup T br_eqb bs (fk_branch T c)) as [src|] eqn:Es; [|exact HI].
    assert (Hsrc : Forall (E (sub bd)) src).
    { rewrite <- Hv. specialize (Hb bs). unfold kb_get, fget in Hb. rewrite Es in Hb. exact Hb. }
    destruct (flookup T br_eqb bd (fk_branch T c)) as [dst|] eqn:Ed.
    - destruct (_ =? _); [|exact HI]. apply KInv_kb; [exact HI|]. apply transfer_all; [exact Hsrc|].
      specialize (Hb bd). unfold kb_get, fget in Hb. rewrite Ed in Hb. exact Hb.
    - apply KInv_kb; [exact HI|exact Hsrc].
  Qed.

  Lemma E_retrieve u es d n : Forall (E u) es -> fes_retrieve T es d n = ct_new \/ Q u d n (fes_retrieve T es d n).
  Proof.
    intro H. unfold fes_retrieve. destruct (find _ es) as [e|] eqn:F; [|left; reflexivity].
    apply find_some in F. destruct F as [Hin Hb]. apply andb_true_iff in Hb. destruct Hb as [Hi _]. apply fe_is_true in Hi. destruct Hi as [<- <-].
    rewrite Forall_forall in H. specialize (H e Hin). unfold E in H.
    destruct (fe_opt T e) as [c|]; [right|left; reflexivity]. apply Qclear. apply H. reflexivity.
  Qed.

  Lemma k_retrieve_Q c b d n : KInv c ->
    k_retrieve T G c (sub b) b d n = ct_new \/ Q (sub b) d n (k_retrieve T G c (sub b) b d n).
  Proof.
    intros (_ & Hb & Hd). unfold k_retrieve. cbn zeta.
    set (rb := if fc_branch G then _ else ct_new). set (rd := if fc_data G then _ else ct_new).
    assert (H1 : rb = ct_new \/ Q (sub b) d n rb). { unfold rb. destruct (fc_branch G); [apply E_retrieve, Hb|auto]. }
    assert (H2 : rd = ct_new \/ Q (sub b) d n rd). { unfold rd. destruct (fc_data G); [apply E_retrieve, Hd|auto]. }
    destruct (f_empty T rb); assumption.
  Qed.

  Lemma KInv_empty : KInv (FCache T N [] []).
  Proof. split; [reflexivity|]. split; intro b; constructor. Qed.

  (** *** The similarity bound *)
  Hypothesis Hsorted : view_sorted root.

  Definition ar_ok (ar : list (view * branch)) : Prop := forall ev eb, In (ev, eb) ar -> ev = sub eb.

  Lemma sim_loop_inv b d n : forall ar c lb, ar_ok ar -> KInv c -> KInv (snd (f_sim_loop T G ar (sub b) b d n c lb)).
  Proof.
    induction ar as [|[ev eb] ar IH]; intros c lb Ha HI; cbn [f_sim_loop]; [exact HI|].
    assert (Ha' : ar_ok ar) by (intros ev' eb' Hin; apply Ha; right; exact Hin).
    destruct (_ <? _); [apply IH; assumption|]. destruct (_ <? _); [apply IH; assumption|].
    destruct (total_difference _ =? 0) eqn:Et; [|apply IH; assumption].
    assert (HI' : KInv (k_transfer T G c eb b)).
    { apply KInv_transfer; [exact HI|]. apply Nat.eqb_eq in Et. rewrite (Ha ev eb (or_introl eq_refl)) in Et.
      exact (total_difference_zero eb b root Hsorted Et). }
    destruct (k_is_optimal _ _ _ _ _ _); [exact HI'|apply IH; assumption].
  Qed.

  Lemma archive_ok s b d d' : (forall d, ar_ok (fs_ar T s d)) -> ar_ok (fs_ar T (f_archive T G s (sub b) b d) d').
  Proof.
    intros Ha. unfold f_archive. destruct (fc_sim G); [|apply Ha]. cbn [fs_ar].
    destruct (d' =? d); [|apply Ha]. intros ev eb Hin.
    destruct (length (fs_ar T s d) <? 2).
    - apply in_app_or in Hin. destruct Hin as [Hin|[Hin|[]]]; [exact (Ha d _ _ Hin)|]. injection Hin as <- <-. reflexivity.
    - assert (K : forall i l, In (ev, eb) (set_nth i (sub b, b) l) -> (ev, eb) = (sub b, b) \/ In (ev, eb) l).
      { induction i as [|i IHi]; intros [|x l]; cbn; try tauto; intros [H|H]; auto; apply IHi in H; tauto. }
      apply K in Hin. destruct Hin as [Hin|Hin]; [injection Hin as -> ->; reflexivity|exact (Ha d _ _ Hin)].
  Qed.
End Caches.

(** ** Soundness *)
Section Sound.
  Context (T : ftask) (G : fcfg) (root : view) (N : nat).
  Notation P := (ft_p T).
  Notation V := (pt_S P).
  Notation sol := (csol V ptag).
  Notation front := (cont V ptag).
  Notation eqb := (pt_eqb P).
  Notation nf := (fc_nf G).
  Notation mls := (pc_mls (fc_p G)).
  Notation sub b := (restrict b root).
  Hypothesis Hids : ids_ok N root.
  Hypothesis Hsorted : view_sorted root.
  Hypothesis Heq : forall a b, eqb a b = true -> a = b.
  Hypothesis Horder : forall v f, In f (pc_order (fc_p G) v) -> f < nf.
  Hypothesis Hconstr : ft_relax T = None -> forall s, pt_ok P s = true.

  Definition okm (f : nat) : Prop := f < nf /\ pt_may P f = true.
  Definition solu (d n : nat) (u : view) (x : sol) : Prop :=
    exists t, allowed okm mls d n u t /\ pt_ok P (tval P u t) = true /\ x = Csol (tval P u t) (nodes t) (tag_of t).
  Definition snd_f (u : view) (d n : nat) (c : front) : Prop := forall x, In x (ct_sols c) -> solu d n u x.

  Lemma solu_mono d n d' n' u x : solu d n u x -> d <= d' -> n <= n' -> solu d' n' u x.
  Proof. intros (t & A & E) Hd Hn. exists t. split; [|exact E]. exact (allowed_mono _ _ _ _ _ _ _ _ A Hd Hn). Qed.
  Lemma snd_mono d n d' n' u c : snd_f u d n c -> d <= d' -> n <= n' -> snd_f u d' n' c.
  Proof. intros H Hd Hn x Hx. exact (solu_mono _ _ _ _ _ _ (H x Hx) Hd Hn). Qed.
  Lemma snd_new u d n : snd_f u d n ct_new.
  Proof. intros x []. Qed.
  Lemma snd_clear u d n c : snd_f u d n c -> snd_f u d n (ct_clear c).
  Proof. intros H x Hx. exact (H x Hx). Qed.
  Lemma snd_add u d n c x : snd_f u d n c -> solu d n u x -> snd_f u d n (f_add T c x).
  Proof. intros H Hx y Hy. apply ct_add_sub in Hy. destruct Hy as [->|Hy]; [exact Hx|exact (H y Hy)]. Qed.
  Lemma snd_padd u d n b c x : snd_f u d n c -> solu d n u x -> snd_f u d n (p_add P b c x).
  Proof. intros H Hx y Hy. unfold p_add in Hy. destruct (_ =? _); apply ct_add_sub in Hy; (destruct Hy as [->|Hy]; [exact Hx|exact (H y Hy)]). Qed.
  Lemma snd_adds u d n c c' : snd_f u d n c -> snd_f u d n c' -> snd_f u d n (f_adds T c c').
  Proof.
    intros H H'. unfold f_adds. unfold snd_f in H'. revert c H. induction (ct_sols c') as [|x xs IH]; intros c H; cbn; [exact H|].
    apply IH; [intros y Hy; apply H'; right; exact Hy|]. apply snd_add; [exact H|apply H'; left; reflexivity].
  Qed.

  Definition leafsol (u : view) (l : nat) : sol := p_leaf P l (pt_leaf P u l).
  Lemma leaf_solu d n u l : l < num_labels u -> mls <= vsize u -> pt_ok P (pt_leaf P u l) = true -> solu d n u (leafsol u l).
  Proof.
    intros Hl Hm Ho. exists (Leaf l). split; [|split; [exact Ho|reflexivity]].
    unfold allowed. cbn. unfold num_labels in Hl. unfold vsize in Hm. repeat split; lia.
  Qed.

  (** The sum of two leaf costs is a solution of one node. *)
  Lemma pair_solu d n u f la : okm f -> 1 <= d -> 1 <= n -> In la (label_pairs (num_labels u)) ->
    mls <= vsize (split_left f u) -> mls <= vsize (split_right f u) ->
    pt_ok P (two_leaves T (split_left f u) (split_right f u) la) = true ->
    solu d n u (p_branch P f (two_leaves T (split_left f u) (split_right f u) la) 0 0).
  Proof.
    intros Hf Hd Hn Hla Hl Hr Ho. exists (Split f (Leaf (fst la)) (Leaf (snd la))).
    unfold label_pairs in Hla. apply filter_In in Hla. destruct Hla as [Hla _]. destruct la as [a b].
    apply in_prod_iff in Hla. rewrite !in_seq in Hla. cbn [fst snd].
    split; [|split; [exact Ho|reflexivity]].
    apply allowed_split. split; [exact Hf|]. split; [exact Hd|]. split; [cbn; exact Hn|].
    unfold allowed. cbn. change (length (split_left f u)) with (num_labels (split_left f u)).
    change (length (split_right f u)) with (num_labels (split_right f u)). rewrite num_labels_left, num_labels_right.
    unfold vsize in Hl, Hr. repeat split; lia.
  Qed.

  (** Two solutions of the children give a solution. *)
  Lemma combine_solu d n u f x y dl nl dr nr : okm f ->
    solu dl nl (split_left f u) x -> solu dr nr (split_right f u) y -> dl <= d - 1 -> dr <= d - 1 -> 1 <= d ->
    cs_nodes x + cs_nodes y + 1 <= n ->
    pt_ok P (cs_val (p_combine P f x y)) = true -> solu d n u (p_combine P f x y).
  Proof.
    intros Hf (tl & Al & Ol & El) (tr & Ar & Or & Er) Hl Hr Hd Hn Ho. subst x y. cbn in Hn, Ho |- *.
    exists (Split f tl tr). split; [|split; [exact Ho|]].
    - apply allowed_split. destruct Al as (P1 & P2 & P3 & P4), Ar as (Q1 & Q2 & Q3 & Q4).
      split; [exact Hf|]. split; [exact Hd|]. split; [lia|]. unfold allowed. repeat split; auto; lia.
    - unfold p_combine, p_branch. cbn. f_equal. lia.
  Qed.

  (** *** Leaves and merging *)
  Lemma try_sound u d n b p x : snd_f u d n (fst p) -> (pt_ok P (cs_val x) = true -> solu d n u x) -> snd_f u d n (fst (f_try T G b p x)).
  Proof.
    intros H Hx. unfold f_try. destruct (pt_ok P (cs_val x)) eqn:E; cbn [negb orb]; [|exact H].
    destruct (_ && _); [exact H|]. cbn [fst]. apply snd_padd; auto.
  Qed.

  Lemma leaf_sound u d n b ub : snd_f u d n (fst (f_leaf T G u b ub)).
  Proof.
    unfold f_leaf, p_mls. rewrite Nat.mul_1_r. destruct (mls <=? vsize u) eqn:E; [|apply snd_new].
    apply Nat.leb_le in E.
    assert (K : forall ls p, (forall l, In l ls -> l < num_labels u) -> snd_f u d n (fst p) ->
      snd_f u d n (fst (fold_left (fun p l => f_try T G b p (leafsol u l)) ls p))).
    { induction ls as [|l ls IH]; intros p Hls Hp; cbn; [exact Hp|].
      apply IH; [intros l' H'; apply Hls; right; exact H'|]. apply try_sound; [exact Hp|].
      intros Ho. apply leaf_solu; auto. apply Hls. left. reflexivity. }
    apply K; [|apply snd_new]. intros l Hl. apply in_seq in Hl. lia.
  Qed.

  Lemma merge_sound u d n b f l r p dl nl dr nr : okm f ->
    snd_f (split_left f u) dl nl l -> snd_f (split_right f u) dr nr r -> dl <= d - 1 -> dr <= d - 1 -> 1 <= d -> nl + nr + 1 <= n ->
    snd_f u d n (fst p) -> snd_f u d n (fst (f_merge T G b f l r p)).
  Proof.
    intros Hf Hl Hr H1 H2 Hd Hn Hp. unfold f_merge.
    assert (K : forall qs p, (forall q, In q qs -> In (fst q) (ct_sols l) /\ In (snd q) (ct_sols r)) -> snd_f u d n (fst p) ->
      snd_f u d n (fst (fold_left (fun p q => f_try T G b p (p_combine P f (fst q) (snd q))) qs p))).
    { induction qs as [|q qs IH]; intros p' Hq Hp'; cbn; [exact Hp'|].
      apply IH; [intros q' H'; apply Hq; right; exact H'|]. apply try_sound; [exact Hp'|].
      intros Ho. destruct (Hq q (or_introl eq_refl)) as [Q1 Q2]. pose proof (Hl _ Q1) as S1. pose proof (Hr _ Q2) as S2.
      apply (combine_solu d n u f _ _ dl nl dr nr); auto.
      destruct S1 as (t1 & (_ & _ & _ & A1) & _ & ->), S2 as (t2 & (_ & _ & _ & A2) & _ & ->). cbn. lia. }
    apply K; [|exact Hp]. intros [x y] Hq. apply in_prod_iff in Hq. exact Hq.
  Qed.

  (** *** The depth-two solver *)
  Lemma skip_ok ub x : t_skip T ub x = false -> pt_ok P (cs_val x) = true.
  Proof.
    unfold t_skip. destruct (ft_relax T) eqn:E; [|intros _; apply Hconstr; reflexivity].
    intro H. apply orb_false_iff in H. destruct H as [H _]. apply negb_false_iff in H. exact H.
  Qed.
  Lemma t_add_sound u d n ub c x : snd_f u d n c -> (pt_ok P (cs_val x) = true -> solu d n u x) -> snd_f u d n (t_add T ub c x).
  Proof.
    intros H Hx. unfold t_add. destruct (t_skip T ub x) eqn:E; [exact H|]. apply snd_add; [exact H|]. apply Hx. exact (skip_ok _ _ E).
  Qed.

  Lemma t_leaf_fold u ub ls : forall c, (forall l, In l ls -> l < num_labels u) -> mls <= vsize u -> snd_f u 0 0 c ->
    snd_f u 0 0 (fold_left (fun c l => t_add T ub c (leafsol u l)) ls c).
  Proof.
    induction ls as [|l ls IH]; intros c Hls Hm Hc; cbn; [exact Hc|].
    apply IH; [intros l' H'; apply Hls; right; exact H'|exact Hm|]. apply t_add_sound; [exact Hc|].
    intros Ho. apply leaf_solu; auto. apply Hls. left. reflexivity.
  Qed.

  Lemma t_one_sound u ub : mls <= vsize u -> snd_f u 1 1 (fst (t_one T G u ub)).
  Proof.
    intros Hm. unfold t_one. cbn zeta.
    assert (K : forall fs p, (forall f, In f fs -> f < nf) -> snd_f u 1 1 (fst p) ->
      snd_f u 1 1 (fst (fold_left (fun p f =>
        if negb (pt_may P f) || (vsize (split_left f u) <? mls) || (vsize (split_right f u) <? mls) then p
        else fold_left (fun q la =>
             let x := p_branch P f (two_leaves T (split_left f u) (split_right f u) la) 0 0 in
             if t_skip T (snd q) x then q else (f_add T (fst q) x, f_add T (snd q) x)) (label_pairs (num_labels u)) p) fs p))).
    { induction fs as [|f fs IH]; intros p Hfs Hp; [exact Hp|]. cbn [fold_left].
      apply IH; [intros f' H'; apply Hfs; right; exact H'|].
      destruct (negb (pt_may P f) || (vsize (split_left f u) <? mls) || (vsize (split_right f u) <? mls)) eqn:E; [exact Hp|].
      apply orb_false_iff in E. destruct E as [E E3]. apply orb_false_iff in E. destruct E as [E1 E2].
      apply negb_false_iff in E1. apply Nat.ltb_ge in E2, E3.
      assert (K2 : forall las q, (forall la, In la las -> In la (label_pairs (num_labels u))) -> snd_f u 1 1 (fst q) ->
        snd_f u 1 1 (fst (fold_left (fun q la =>
             let x := p_branch P f (two_leaves T (split_left f u) (split_right f u) la) 0 0 in
             if t_skip T (snd q) x then q else (f_add T (fst q) x, f_add T (snd q) x)) las q))).
      { induction las as [|la las IHl]; intros q Hla Hq; [exact Hq|]. cbn [fold_left].
        apply IHl; [intros l' H'; apply Hla; right; exact H'|]. cbn zeta.
        destruct (t_skip T (snd q) _) eqn:Es; [exact Hq|]. cbn [fst]. apply snd_add; [exact Hq|].
        apply pair_solu; try lia; try (apply Hla; left; reflexivity).
        - split; [apply Hfs; left; reflexivity|exact E1].
        - exact (skip_ok _ _ Es). }
      apply K2; auto. }
    apply K; [intros f Hf; apply in_seq in Hf; lia|]. cbn [fst].
    apply (snd_mono 0 0); [|lia|lia]. apply t_leaf_fold; [intros l Hl; apply in_seq in Hl; lia|exact Hm|apply snd_new].
  Qed.

  (** The children of a root feature: solutions of one node. *)
  Definition one_f (u : view) (c : front) : Prop := forall x, In x (ct_sols c) -> solu 1 1 u x /\ cs_nodes x = 1.
  Definition kids_ok (u : view) (k : kids T) : Prop := forall f, one_f (split_left f u) (fst (k f)) /\ one_f (split_right f u) (snd (k f)).

  Lemma t_child_ok ub w f c a b : okm f -> a = split_left f w -> b = split_right f w -> one_f w c -> one_f w (t_child T G ub a b f c).
  Proof.
    intros Hf -> -> Hc. unfold t_child. rewrite num_labels_left.
    destruct (mls <=? vsize (split_left f w)) eqn:E1; cbn [andb]; [|exact Hc].
    destruct (mls <=? vsize (split_right f w)) eqn:E2; [|exact Hc]. apply Nat.leb_le in E1, E2.
    assert (K : forall las c, (forall la, In la las -> In la (label_pairs (num_labels w))) -> one_f w c ->
      one_f w (fold_left (fun c la => t_add T ub c (p_branch P f (two_leaves T (split_left f w) (split_right f w) la) 0 0)) las c)).
    { induction las as [|la las IH]; intros c' Hla Hc'; [exact Hc'|]. cbn [fold_left].
      apply IH; [intros l' H'; apply Hla; right; exact H'|]. unfold t_add. destruct (t_skip _ _ _) eqn:Es; [exact Hc'|].
      intros y Hy. apply ct_add_sub in Hy. destruct Hy as [->|Hy]; [|exact (Hc' y Hy)]. split; [|reflexivity].
      apply pair_solu; try lia; auto; [apply Hla; left; reflexivity|exact (skip_ok _ _ Es)]. }
    apply K; auto.
  Qed.

  Lemma kids_set_same k f p : kids_set T k f p f = p.
  Proof. unfold kids_set. rewrite Nat.eqb_refl. reflexivity. Qed.
  Lemma kids_set_ok u k f p : kids_ok u k -> one_f (split_left f u) (fst p) -> one_f (split_right f u) (snd p) -> kids_ok u (kids_set T k f p).
  Proof. intros H H1 H2 g. unfold kids_set. destruct (g =? f) eqn:E; [apply Nat.eqb_eq in E; subst g; auto|apply H]. Qed.

  Lemma filter_comm {A} (p q : A -> bool) l : filter p (filter q l) = filter q (filter p l).
  Proof. induction l as [|x l IH]; cbn; [reflexivity|]. destruct (p x) eqn:E1, (q x) eqn:E2; cbn; rewrite ?E1, ?E2, IH; reflexivity. Qed.
  Lemma split_comm_ll f g u : split_left f (split_left g u) = split_left g (split_left f u).
  Proof. unfold split_left. rewrite !map_map. apply map_ext. intro. apply filter_comm. Qed.
  Lemma split_comm_lr f g u : split_left f (split_right g u) = split_right g (split_left f u).
  Proof. unfold split_left, split_right. rewrite !map_map. apply map_ext. intro. apply filter_comm. Qed.
  Lemma split_comm_rr f g u : split_right f (split_right g u) = split_right g (split_right f u).
  Proof. unfold split_right. rewrite !map_map. apply map_ext. intro. apply filter_comm. Qed.

  Lemma t_pair_ok u ub f1 f2 k : okm f1 -> okm f2 -> kids_ok u k -> kids_ok u (t_pair T G u ub f1 k f2).
  Proof.
    intros H1 H2 Hk. unfold t_pair. cbn zeta.
    set (k1 := kids_set T k f1 _). assert (K1 : kids_ok u k1).
    { apply kids_set_ok; [exact Hk| |apply Hk]. cbn [fst]. apply t_child_ok; auto; apply Hk. }
    set (k2 := kids_set T k1 f1 _). assert (K2 : kids_ok u k2).
    { apply kids_set_ok; [exact K1|apply K1|]. cbn [snd]. apply t_child_ok; auto; apply K1. }
    set (k3 := kids_set T k2 f2 _). assert (K3 : kids_ok u k3).
    { apply kids_set_ok; [exact K2| |apply K2]. cbn [fst]. apply t_child_ok; auto; [apply split_comm_ll|apply split_comm_lr|apply K2]. }
    apply kids_set_ok; [exact K3|apply K3|]. cbn [snd]. apply t_child_ok; auto; [symmetry; apply split_comm_lr|apply split_comm_rr|apply K3].
  Qed.

  Definition res_ok (u : view) (R : fterm T) : Prop := snd_f u 1 1 (fm_one T R) /\ snd_f u 2 2 (fm_two T R) /\ snd_f u 2 3 (fm_three T R).

  Lemma t_merge_ok u ub f l r : forall R, okm f -> snd_f (split_left f u) 1 1 l -> snd_f (split_right f u) 1 1 r ->
    res_ok u R -> res_ok u (t_merge T ub f l r R).
  Proof.
    intros R Hf Hl Hr HR. unfold t_merge.
    assert (K : forall qs R, (forall q, In q qs -> In (fst q) (ct_sols l) /\ In (snd q) (ct_sols r)) -> res_ok u R ->
      res_ok u (fold_left (fun R p =>
      let x := p_combine P f (fst p) (snd p) in
      if t_skip T ub x then R
      else match cs_nodes x with
           | 2 => FTerm T (fm_one T R) (f_add T (fm_two T R) x) (fm_three T R)
           | 3 => FTerm T (fm_one T R) (fm_two T R) (f_add T (fm_three T R) x)
           | _ => R
           end) qs R)).
    { induction qs as [|q qs IH]; intros R' Hq HR'; [exact HR'|]. cbn [fold_left].
      apply IH; [intros q' H'; apply Hq; right; exact H'|]. cbn zeta.
      destruct (t_skip T ub (p_combine P f (fst q) (snd q))) eqn:Es; [exact HR'|]. apply skip_ok in Es.
      destruct (Hq q (or_introl eq_refl)) as [Q1 Q2]. destruct HR' as (A1 & A2 & A3).
      assert (C : forall n, cs_nodes (p_combine P f (fst q) (snd q)) = n -> solu 2 n u (p_combine P f (fst q) (snd q))).
      { intros n En. apply (combine_solu 2 n u f _ _ 1 1 1 1); auto; try (apply Hl || apply Hr; assumption); try lia.
        cbn in En. lia. }
      destruct (cs_nodes (p_combine P f (fst q) (snd q))) as [|[|[|[|m]]]] eqn:En; try (split; [exact A1|split; [exact A2|exact A3]]).
      - split; [exact A1|]. split; [|exact A3]. cbn [fm_two]. apply snd_add; [exact A2|]. apply C. reflexivity.
      - split; [exact A1|]. split; [exact A2|]. cbn [fm_three]. apply snd_add; [exact A3|]. apply C. reflexivity. }
    apply K; [|exact HR]. intros [x y] Hq. apply in_prod_iff in Hq. exact Hq.
  Qed.

  Lemma t_leaves_ok u ub : snd_f u 1 1 (t_leaves T G ub u).
  Proof.
    unfold t_leaves. destruct (mls <=? vsize u) eqn:E; [|apply snd_new]. apply Nat.leb_le in E.
    apply (snd_mono 0 0); [|lia|lia]. apply t_leaf_fold; [intros l Hl; apply in_seq in Hl; lia|exact E|apply snd_new].
  Qed.

  Lemma t_root_ok u ub f k R : okm f -> kids_ok u k -> res_ok u R -> res_ok u (t_root T G u ub f k R).
  Proof.
    intros Hf Hk HR. unfold t_root. cbn zeta.
    assert (K1 : snd_f (split_left f u) 1 1 (fst (k f))) by (intros x Hx; apply (proj1 (Hk f)); exact Hx).
    assert (K2 : snd_f (split_right f u) 1 1 (snd (k f))) by (intros x Hx; apply (proj2 (Hk f)); exact Hx).
    repeat apply t_merge_ok; auto; apply t_leaves_ok.
  Qed.

  Lemma t_loop_ok u ub : forall fs k R, (forall f, In f fs -> okm f) -> kids_ok u k -> res_ok u R -> res_ok u (t_loop T G u ub fs k R).
  Proof.
    induction fs as [|f fs IH]; intros k R Hfs Hk HR; [exact HR|]. cbn [t_loop]. destruct (f_eq _ _ _); [exact HR|]. cbn zeta.
    assert (Hf : okm f) by (apply Hfs; left; reflexivity).
    assert (Hk' : kids_ok u (fold_left (t_pair T G u ub f) fs k)).
    { assert (K : forall gs k, (forall g, In g gs -> okm g) -> kids_ok u k -> kids_ok u (fold_left (t_pair T G u ub f) gs k)).
      { induction gs as [|g gs IHg]; intros k' Hg Hk'; [exact Hk'|]. cbn [fold_left]. apply IHg; [intros g' H'; apply Hg; right; exact H'|].
        apply t_pair_ok; auto. apply Hg. left. reflexivity. }
      apply K; [|exact Hk]. intros g Hg. apply Hfs. right. exact Hg. }
    apply IH; [intros g Hg; apply Hfs; right; exact Hg|exact Hk'|]. apply t_root_ok; assumption.
  Qed.

  Lemma t_compute_ok u b ub n : res_ok u (fst (t_compute T G u b ub n)).
  Proof.
    unfold t_compute. destruct (vsize u <? mls) eqn:Em.
    { split; [|split]; apply snd_new. }
    apply Nat.ltb_ge in Em. pose proof (t_one_sound u ub Em) as H1.
    destruct (t_one T G u ub) as [one ub']. cbn [fst] in H1.
    assert (R0 : res_ok u (FTerm T one ct_new ct_new)) by (split; [exact H1|split; apply snd_new]).
    destruct (n =? 1); [exact R0|].
    set (R := if f_eq T (f_lb0 T) one then _ else _). assert (HR : res_ok u R).
    { unfold R. destruct (f_eq _ _ _); [exact R0|]. apply t_loop_ok; [| |exact R0].
      - intros f Hf. unfold t_features in Hf. apply filter_In in Hf. destruct Hf as [Hf Hm]. apply in_seq in Hf.
        apply andb_true_iff in Hm. destruct Hm as [Hm _]. apply andb_true_iff in Hm. destruct Hm as [Hm _]. apply andb_true_iff in Hm. destruct Hm as [Hm _].
        apply andb_true_iff in Hm. destruct Hm as [Hm _]. split; [lia|exact Hm].
      - intros f. split; intros x []. }
    destruct HR as (A1 & A2 & A3). cbn zeta. cbn [fst].
    assert (A2' : snd_f u 2 2 (f_adds T (fm_two T R) one)).
    { apply snd_adds; [exact A2|]. apply (snd_mono 1 1); [exact H1|lia|lia]. }
    split; [exact H1|]. split; [exact A2'|]. cbn [fm_three]. apply snd_adds; [exact A3|]. apply (snd_mono 2 2); [exact A2'|lia|lia].
  Qed.

  (** *** The state *)
  Definition ts_ok (z : ftstate T) : Prop := forall w, fz_data T z = Some w -> (exists b, w = sub b) /\ res_ok w (fz_res T z).
  Definition kinv := KInv T root N snd_f.
  Definition sinv (s : fstate T) : Prop :=
    kinv (fs_k T s) /\ (forall d, ar_ok root (fs_ar T s d)) /\ ts_ok (fs_t1 T s) /\ ts_ok (fs_t2 T s).

  Lemma sinv_k s c : sinv s -> kinv c -> sinv (fset_k T s c).
  Proof. intros (_ & H2 & H3 & H4) H1. unfold sinv. cbn. auto. Qed.
  Lemma sinv_archive s b d : sinv s -> sinv (f_archive T G s (sub b) b d).
  Proof.
    intros (H1 & H2 & H3 & H4). split; [|split].
    - unfold f_archive. destruct (fc_sim G); exact H1.
    - intro d'. apply archive_ok. exact H2.
    - unfold f_archive. destruct (fc_sim G); auto.
  Qed.
  Lemma retrieve_sound s b d n : sinv s -> snd_f (sub b) d n (k_retrieve T G (fs_k T s) (sub b) b d n).
  Proof.
    intros (H1 & _). destruct (k_retrieve_Q T G root N snd_f snd_clear _ b d n H1) as [->|H]; [apply snd_new|exact H].
  Qed.

  Lemma t_solve_ok z b ub n : ts_ok z ->
    res_ok (sub b) (fst (fst (t_solve T G z (sub b) b ub n))) /\ ts_ok (snd (t_solve T G z (sub b) b ub n)).
  Proof.
    intros Hz. unfold t_solve. destruct (t_same T z (sub b) n) eqn:E.
    - cbn [fst snd]. split; [|exact Hz]. unfold t_same in E. destruct (fz_data T z) as [w|] eqn:Ew; [|discriminate].
      destruct (Hz w Ew) as [(b' & ->) HR].
      apply andb_true_iff in E. destruct E as [E _]. apply andb_true_iff in E. destruct E as [E E2]. apply andb_true_iff in E. destruct E as [_ E1].
      apply Nat.eqb_eq in E1, E2. rewrite <- (diff_none b' b root Hsorted E1 E2). exact HR.
    - pose proof (t_compute_ok (sub b) b ub n) as HR. destruct (t_compute T G (sub b) b ub n) as [R ub']. cbn [fst snd] in *.
      split; [exact HR|]. intros w Hw. cbn in Hw. injection Hw as <-. split; [exists b; reflexivity|exact HR].
  Qed.

  Lemma store_term_ok c b ub x d n : kinv c -> snd_f (sub b) d n x -> kinv (f_store_term T G c (sub b) b ub x d n).
  Proof.
    intros Hc Hx. unfold f_store_term. destruct (k_is_optimal _ _ _ _ _ _ _); [exact Hc|].
    destruct (f_empty T x); [apply KInv_upd_lb; auto|apply KInv_store; auto].
  Qed.

  Lemma terminal_sound b ub d n s : sinv s -> 1 <= n -> n <= 2 ^ d - 1 -> d <= n -> d <= 2 ->
    snd_f (sub b) d n (fst (f_terminal T G (sub b) b ub d n s)) /\ sinv (snd (f_terminal T G (sub b) b ub d n s)).
  Proof.
    intros Hs Hn1 Hn Hdn Hd. pose proof Hs as (H1 & H2 & H3 & H4). unfold f_terminal. cbn zeta.
    set (first := (_ <? _)%Z).
    assert (Hz : ts_ok (if first then fs_t1 T s else fs_t2 T s)) by (destruct first; assumption).
    destruct (t_solve_ok _ b ub n Hz) as [HR HZ].
    destruct (t_solve T G (if first then fs_t1 T s else fs_t2 T s) (sub b) b ub n) as [[R ub'] z]. cbn [fst snd] in HR, HZ |- *.
    pose proof HR as (A1 & A2 & A3).
    split.
    - assert (Hres : snd_f (sub b) d n (match n with 1 => fm_one T R | 2 => fm_two T R | _ => fm_three T R end)).
      { destruct n as [|[|[|[|n]]]]; try lia.
        - apply (snd_mono 1 1); [exact A1| |lia]. destruct d; [cbn in Hn; lia|lia].
        - apply (snd_mono 2 2); [exact A2| |lia]. destruct d as [|[|d]]; cbn in Hn; lia.
        - apply (snd_mono 2 3); [exact A3| |lia]. destruct d as [|[|d]]; cbn in Hn; lia.
        - exfalso. destruct d as [|[|[|d]]]; cbn in Hn; lia. }
      destruct (f_sdom _ _ _); [apply snd_new|apply snd_clear; exact Hres].
    - apply sinv_archive. split; [|split; [exact H2|]].
      + cbn [fs_k]. repeat apply store_term_ok; assumption.
      + cbn [fs_t1 fs_t2]. destruct first; auto.
  Qed.

  (** *** The search *)
  Definition rec_sound (rec : fsolver T) : Prop := forall b ub d n s, sinv s -> d <= n -> n <= 2 ^ d - 1 ->
    snd_f (sub b) d n (fst (fst (rec (sub b) b ub d n s))) /\ sinv (snd (rec (sub b) b ub d n s)).

  Definition loop_ok (b : branch) (d n : nat) (L : floop T) : Prop := snd_f (sub b) d n (fl_sols T L) /\ sinv (fl_st T L).

  Lemma half_size d n : 1 <= d -> n <= 2 ^ d - 1 -> p_max_size d n <= 2 ^ (d - 1) - 1 /\
    (forall k, p_min_size d n <= k <= p_max_size d n -> k <= 2 ^ (d - 1) - 1 /\ n - k - 1 <= 2 ^ (d - 1) - 1 /\ k <= n - 1).
  Proof. intros Hd Hn. unfold p_min_size, p_max_size. split; [lia|]. intros k Hk. lia. Qed.

  Lemma size_step_sound rec b d n f (swap : bool) L k : rec_sound rec -> okm f -> 1 <= d -> d <= n -> n <= 2 ^ d - 1 ->
    p_min_size d n <= k <= p_max_size d n -> loop_ok b d n L ->
    let b1 := if swap then br_right b f else br_left b f in
    let b2 := if swap then br_left b f else br_right b f in
    loop_ok b d n (f_size_step T G rec b d n f swap (sub b1) b1 (sub b2) b2 L k).
  Proof.
    intros Hr Hf Hd Hdn Hn Hk [HL HS] b1 b2. destruct (half_size d n Hd Hn) as [_ Hh]. destruct (Hh k Hk) as (Hk1 & Hk2 & Hk3).
    unfold f_size_step. cbn zeta.
    destruct (f_lr_lb _ _ _ _ _ _ _ _ _ _ _ _) as [[lb llb] rlb].
    destruct (_ && _); [split; assumption|]. destruct (f_eq _ _ _); [split; assumption|].
    destruct (Hr b1 (f_subtract T G b (fl_ub T L) rlb (fl_sols T L)) (Nat.min (d - 1) k) k (fl_st T L) HS) as [R1 S1];
      [lia|apply pow_min; exact Hk1|].
    destruct (rec (sub b1) b1 _ _ _ _) as [[l ubl] s1]. cbn [fst snd] in R1, S1.
    destruct (f_empty T l).
    { destruct (f_lr_lb _ _ _ _ _ _ _ _ _ _ _ _) as [[lb' llb'] rlb']. split; assumption. }
    destruct (Hr b2 (f_subtract T G b (fl_ub T L) l (fl_sols T L)) (Nat.min (d - 1) (n - k - 1)) (n - k - 1) s1 S1) as [R2 S2];
      [lia|apply pow_min; exact Hk2|].
    destruct (rec (sub b2) b2 _ _ _ _) as [[r ubr] s2]. cbn [fst snd] in R2, S2.
    destruct (f_empty T r).
    { destruct (f_lr_lb _ _ _ _ _ _ _ _ _ _ _ _) as [[lb' llb'] rlb']. split; assumption. }
    assert (M : snd_f (sub b) d n (fst (if swap then f_merge T G b f r l (fl_sols T L, fl_ub T L) else f_merge T G b f l r (fl_sols T L, fl_ub T L)))).
    { unfold b1, b2 in *. destruct swap.
      - apply (merge_sound (sub b) d n b f r l _ (Nat.min (d - 1) (n - k - 1)) (n - k - 1) (Nat.min (d - 1) k) k); auto; try lia;
          [rewrite restrict_left; exact R2|rewrite restrict_right; exact R1].
      - apply (merge_sound (sub b) d n b f l r _ (Nat.min (d - 1) k) k (Nat.min (d - 1) (n - k - 1)) (n - k - 1)); auto; try lia;
          [rewrite restrict_left; exact R1|rewrite restrict_right; exact R2]. }
    destruct (if swap then f_merge T G b f r l _ else f_merge T G b f l r _) as [sols ub]. split; [exact M|exact S2].
  Qed.

  Lemma feature_step_sound rec b d n f L : rec_sound rec -> f < nf -> 1 <= d -> d <= n -> n <= 2 ^ d - 1 ->
    loop_ok b d n L -> loop_ok b d n (f_feature_step T G rec (sub b) b d n f L).
  Proof.
    intros Hr Hf Hd Hdn Hn HL. unfold f_feature_step.
    destruct (br_has b f || negb (pt_may P f) || pc_redundant (fc_p G) f) eqn:E0; [exact HL|].
    apply orb_false_iff in E0. destruct E0 as [E0 _]. apply orb_false_iff in E0. destruct E0 as [_ E0]. apply negb_false_iff in E0.
    assert (Of : okm f) by (split; assumption). cbn zeta.
    destruct (_ || _); [exact HL|]. rewrite restrict_left, restrict_right.
    assert (K : forall (swap : bool) ks L, (forall k, In k ks -> p_min_size d n <= k <= p_max_size d n) -> loop_ok b d n L ->
      let b1 := if swap then br_right b f else br_left b f in
      let b2 := if swap then br_left b f else br_right b f in
      loop_ok b d n (fold_left (f_size_step T G rec b d n f swap (sub b1) b1 (sub b2) b2) ks L)).
    { intros swap. induction ks as [|k ks IH]; intros L' Hks HL'; [exact HL'|]. cbn [fold_left]. cbn zeta in *.
      apply IH; [intros k' H'; apply Hks; right; exact H'|]. apply size_step_sound; auto. apply Hks. left. reflexivity. }
    assert (Hks : forall k, In k (seq (p_min_size d n) (S (p_max_size d n) - p_min_size d n)) -> p_min_size d n <= k <= p_max_size d n).
    { intros k Hk. apply in_seq in Hk. lia. }
    destruct (_ <? _); [exact (K true _ _ Hks HL)|exact (K false _ _ Hks HL)].
  Qed.

  Lemma feature_loop_sound rec b d n blb : forall fs L, rec_sound rec -> (forall f, In f fs -> f < nf) -> 1 <= d -> d <= n -> n <= 2 ^ d - 1 ->
    loop_ok b d n L -> loop_ok b d n (f_feature_loop T G rec (sub b) b d n blb L fs).
  Proof.
    induction fs as [|f fs IH]; intros L Hr Hfs Hd Hdn Hn HL; [exact HL|]. cbn [f_feature_loop].
    destruct (_ && _); [exact HL|]. destruct (_ && _); [exact HL|].
    apply IH; auto; [intros g Hg; apply Hfs; right; exact Hg|]. apply feature_step_sound; auto. apply Hfs. left. reflexivity.
  Qed.

  Lemma lower_cached_le c v b n : forall ld p, f_lower_cached T G c v b n ld = Some p -> 1 <= fst p <= ld /\ snd p <= n.
  Proof.
    induction ld as [|ld IH]; intros p H; cbn [f_lower_cached] in H; [discriminate|].
    destruct (k_is_optimal _ _ _ _ _ _ _).
    - injection H as <-. cbn [fst snd]. lia.
    - apply IH in H. lia.
  Qed.

  Lemma general_sound rec b ub d n s : rec_sound rec -> sinv s -> 1 <= d -> d <= n -> n <= 2 ^ d - 1 ->
    snd_f (sub b) d n (fst (fst (f_general T G rec (sub b) b ub d n s))) /\ sinv (snd (f_general T G rec (sub b) b ub d n s)).
  Proof.
    intros Hr Hs Hd Hdn Hn. unfold f_general.
    pose proof (leaf_sound (sub b) d n b ub) as Hl. destruct (f_leaf T G (sub b) b ub) as [sols ub1]. cbn [fst] in Hl.
    destruct (negb _); [split; assumption|].
    set (q := match f_lower_cached _ _ _ _ _ _ _ with Some (ld, ln) => _ | None => _ end).
    assert (Hq : snd_f (sub b) d n (fst q)).
    { unfold q. destruct (f_lower_cached T G (fs_k T s) (sub b) b n (d - 1)) as [[ld ln]|] eqn:El; [|exact Hl].
      apply lower_cached_le in El. cbn [fst snd] in El.
      assert (Hc : snd_f (sub b) d n (k_retrieve T G (fs_k T s) (sub b) b ld ln)).
      { apply (snd_mono ld ln); [apply retrieve_sound; exact Hs|lia|lia]. }
      assert (K : forall xs p, (forall x, In x xs -> solu d n (sub b) x) -> snd_f (sub b) d n (fst p) ->
        snd_f (sub b) d n (fst (fold_left (fun p x => if fc_ub G && f_sdom_sol T (snd p) x then p else (p_add P b (fst p) x, f_upd_ub T G (snd p) x)) xs p))).
      { induction xs as [|x xs IH]; intros p Hx Hp; [exact Hp|]. cbn [fold_left]. apply IH; [intros y Hy; apply Hx; right; exact Hy|].
        destruct (_ && _); [exact Hp|]. cbn [fst]. apply snd_padd; [exact Hp|apply Hx; left; reflexivity]. }
      apply K; [|exact Hl]. intros x Hx. apply Hc. exact Hx. }
    clearbody q. destruct q as [sols2 ub2]. cbn [fst] in Hq. cbn zeta.
    destruct (feature_loop_sound rec b d n (f_compute_lb T G s (sub b) b d n) (pc_order (fc_p G) (sub b)) (FLoop T ub2 sols2 ct_new s) Hr) as [HL HS];
      [intros f Hf; exact (Horder _ _ Hf)|exact Hd|exact Hdn|exact Hn|split; assumption|].
    set (L := f_feature_loop _ _ _ _ _ _ _ _ _ _) in *. cbn [fst snd]. split; [exact HL|].
    apply sinv_archive. apply sinv_k; [exact HS|].
    destruct (f_empty T (fl_sols T L)); [apply KInv_upd_lb; [exact Hids|apply HS]|apply KInv_store; [exact Hids|exact snd_clear|apply HS|exact HL]].
  Qed.

  Lemma update_sim_inv s b d n : sinv s -> sinv (snd (f_update_sim T G s (sub b) b d n)).
  Proof.
    intros Hs. unfold f_update_sim. destruct (fc_sim G); [|exact Hs].
    pose proof (sim_loop_inv T G root N snd_f Hsorted b d n (fs_ar T s d) (fs_k T s) (f_lb0 T) (proj1 (proj2 Hs) d) (proj1 Hs)) as Hc.
    destruct (f_sim_loop _ _ _ _ _ _ _ _ _) as [[lb opt] c]. cbn [snd] in Hc.
    assert (Hs' : sinv (fset_k T s c)) by (apply sinv_k; assumption).
    destruct (f_empty T lb); [exact Hs'|]. destruct opt; [exact Hs'|]. destruct (f_eq _ _ _); [exact Hs'|].
    cbn [snd]. apply sinv_k; [exact Hs'|]. apply KInv_upd_lb; [exact Hids|exact Hc].
  Qed.

  Lemma search_sound : forall fuel, rec_sound (f_search T G fuel).
  Proof.
    induction fuel as [|fuel IH]; intros b ub d n s Hs Hdn Hn; cbn [f_search].
    - cbn [fst snd]. split; [apply leaf_sound|exact Hs].
    - destruct ((d =? 0) || (n =? 0)) eqn:E0; [cbn [fst snd]; split; [apply leaf_sound|exact Hs]|].
      apply orb_false_iff in E0. destruct E0 as [E0 E1]. apply Nat.eqb_neq in E0, E1. cbn zeta.
      destruct (negb (f_empty T _)); [cbn [fst snd]; split; [apply retrieve_sound; exact Hs|exact Hs]|].
      assert (C : forall leaf s, sinv s ->
        let r := if fc_term G && (d <=? 2)
            then let ub' := if fc_ub G then f_relax T b (ct_clear ub) leaf else ct_clear ub in
                 let '(r, s) := f_terminal T G (sub b) b ub' d n s in (r, ub, s)
            else f_general T G (f_search T G fuel) (sub b) b ub d n s in
        snd_f (sub b) d n (fst (fst r)) /\ sinv (snd r)).
      { intros leaf s' Hs'. cbn zeta. destruct (fc_term G && (d <=? 2)) eqn:Et.
        - apply andb_true_iff in Et. destruct Et as [_ Et]. apply Nat.leb_le in Et.
          pose proof (terminal_sound b (if fc_ub G then f_relax T b (ct_clear ub) leaf else ct_clear ub) d n s' Hs' ltac:(lia) Hn Hdn Et) as Ht.
          destruct (f_terminal _ _ _ _ _ _ _ _) as [r s2]. exact Ht.
        - apply general_sound; auto. lia. }
      destruct (fc_lb G).
      + pose proof (update_sim_inv s b d n Hs) as Hs'. destruct (f_update_sim T G s (sub b) b d n) as [upd s']. cbn [snd] in Hs'.
        destruct (upd && _); [cbn [fst snd]; split; [apply retrieve_sound; exact Hs'|exact Hs']|].
        destruct (fc_ub G && _); [cbn [fst snd]; split; [apply snd_new|exact Hs']|].
        destruct (f_eq _ _ _); [cbn [fst snd]; split; [apply leaf_sound|exact Hs']|]. exact (C _ _ Hs').
      + exact (C _ _ Hs).
  Qed.

  (** *** Rebuilding the tree *)
  (** The depth-two solver rebuilds its trees with any feature below the root. *)
  Definition okc (f : nat) : Prop := f < nf /\ (fc_term G = false -> pt_may P f = true).
  Definition good_tree (d : nat) (u : view) (x : sol) (t : tree) : Prop :=
    allowed okc mls d (2 ^ d - 1) u t /\ tval P u t = cs_val x.

  Lemma good_split f l r u d x y z : okm f -> 1 <= d ->
    good_tree (d - 1) (split_left f u) y l -> good_tree (d - 1) (split_right f u) z r ->
    pt_add P (cs_val y) (cs_val z) = cs_val x -> good_tree d u x (Split f l r).
  Proof.
    intros [Hf Hm] Hd [Al El] [Ar Er] E. split; [|cbn; rewrite El, Er; exact E].
    assert (2 ^ d = 2 * 2 ^ (d - 1)).
    { replace d with (S (d - 1)) at 1 by lia. rewrite Nat.pow_succ_r'. reflexivity. }
    destruct Al as (P1 & P2 & P3 & P4), Ar as (Q1 & Q2 & Q3 & Q4).
    pose proof (Nat.pow_nonzero 2 (d - 1)).
    apply allowed_split. split; [split; auto|]. split; [exact Hd|]. split; [lia|].
    unfold allowed. auto 10.
  Qed.

  Lemma good_mono d d' u x t : good_tree d u x t -> d <= d' -> good_tree d' u x t.
  Proof.
    intros [A E] H. split; [|exact E]. apply (allowed_mono _ _ _ _ _ _ _ _ A H).
    assert (2 ^ d <= 2 ^ d') by (apply Nat.pow_le_mono_r; lia). lia.
  Qed.

  Lemma good_leaf d u l : l < num_labels u -> mls <= vsize u -> good_tree d u (leafsol u l) (Leaf l).
  Proof. intros Hl Hm. split; [|reflexivity]. unfold allowed. cbn. unfold num_labels in Hl. unfold vsize in Hm. repeat split; lia. Qed.

  Lemma cand_good s f a u p : mls <= vsize u -> In p (t_cand T G s f a u) -> fc_term G = true ->
    good_tree 1 u (f_val T (fst p)) (snd p).
  Proof.
    intros Hm Hp Ht. unfold t_cand in Hp. destruct (a =? 0).
    - unfold t_leaf_cand in Hp. apply in_flat_map in Hp. destruct Hp as (l & Hl & Hp). apply in_seq in Hl. cbn zeta in Hp.
      destruct (_ && _); [destruct Hp|]. destruct Hp as [<-|[]]. cbn [fst snd].
      destruct (good_leaf 1 u l) as [G1 G2]; [lia|exact Hm|]. split; [exact G1|exact G2].
    - unfold t_split_cand in Hp. apply in_flat_map in Hp. destruct Hp as (g & Hg & Hp). apply in_seq in Hg.
      destruct ((g =? f) || _ || _) eqn:E; [destruct Hp|].
      apply orb_false_iff in E. destruct E as [E E3]. apply orb_false_iff in E. destruct E as [_ E2]. apply Nat.ltb_ge in E2, E3.
      apply in_flat_map in Hp. destruct Hp as ([a1 a2] & Ha & Hp). apply in_prod_iff in Ha. rewrite !in_seq in Ha. cbn zeta in Hp.
      destruct (_ && _); [destruct Hp|]. destruct Hp as [<-|[]]. cbn [fst snd]. split; [|reflexivity].
      apply allowed_split. split; [split; [lia|intro; congruence]|]. split; [lia|]. split; [cbn; lia|].
      unfold allowed. cbn. change (length (split_left g u)) with (num_labels (split_left g u)).
      change (length (split_right g u)) with (num_labels (split_right g u)). rewrite num_labels_left, num_labels_right.
      unfold vsize in E2, E3. repeat split; lia.
  Qed.

  Lemma t_construct_good d n u x t : fc_term G = true -> solu d n u x -> t_construct T G x u = Some t -> good_tree 2 u x t.
  Proof.
    intros Ht (t0 & A & _ & ->) H. unfold t_construct in H. cbn [cs_tag cs_val] in H.
    destruct t0 as [l|f tl tr]; cbn [tag_of pg_feat] in H; [discriminate|].
    apply allowed_split in A. destruct A as (Of & _ & _ & Al & Ar). apply allowed_size in Al, Ar.
    destruct (find _ _) as [[p q]|] eqn:F; [|discriminate]. injection H as <-. apply find_some in F. destruct F as [F1 F2].
    apply in_prod_iff in F1. destruct F1 as [Fp Fq]. cbn [fst snd pg_l pg_r] in *. apply Heq in F2.
    apply (good_split f _ _ u 2 _ (f_val T (fst p)) (f_val T (fst q))); auto.
    - eapply cand_good; eauto.
    - eapply cand_good; eauto.
  Qed.

  Lemma scan_sound s b dm : sinv s -> forall sizes ub r, f_scan T G s (sub b) b dm ub sizes = r ->
    forall c k, fst r = Some (c, k) -> In k sizes /\ snd_f (sub b) (Nat.min dm k) k c.
  Proof.
    intros Hs. induction sizes as [|k sizes IH]; intros ub r Hr c k0 Hf; cbn [f_scan] in Hr.
    - subst r. discriminate.
    - destruct (k =? 0) eqn:Ek.
      + apply Nat.eqb_eq in Ek. subst k. pose proof (leaf_sound (sub b) (Nat.min dm 0) 0 b ub) as Hl.
        destruct (f_leaf T G (sub b) b ub) as [c1 ub1]. cbn [fst] in Hl.
        destruct (f_empty T c1); [destruct (IH _ _ Hr _ _ Hf); split; [right; assumption|assumption]|].
        subst r. cbn in Hf. injection Hf as <- <-. split; [left; reflexivity|exact Hl].
      + destruct (f_empty T _); [destruct (IH _ _ Hr _ _ Hf); split; [right; assumption|assumption]|].
        subst r. cbn [fst] in Hf. injection Hf as <- <-. split; [left; reflexivity|]. apply retrieve_sound. exact Hs.
  Qed.

  Lemma child_sound b d n a s : sinv s -> a <= 2 ^ (d - 1) - 1 ->
    let r := f_child T G (sub b) b d n a s in
    sinv (snd r) /\ snd (fst (fst r)) <= d - 1 /\ snd_f (sub b) (snd (fst (fst r))) (snd (fst r)) (fst (fst (fst r))).
  Proof.
    intros Hs Ha. cbn zeta. unfold f_child. cbn zeta.
    set (from := Nat.max a (p_min_size d n)).
    set (W := if fc_branch G || fc_data G then f_scan _ _ _ _ _ _ _ _ else _).
    assert (HW : forall c k, fst W = Some (c, k) -> a <= k /\ snd_f (sub b) (Nat.min (d - 1) k) k c).
    { intros c k HW. unfold W in HW. destruct (fc_branch G || fc_data G); [|discriminate].
      destruct (scan_sound s b (d - 1) Hs _ _ _ eq_refl c k HW) as [H1 H2]. split; [|exact H2]. apply in_seq in H1. lia. }
    clearbody W. destruct W as [found ub]. cbn [fst] in HW.
    set (kept := match found with Some (c, _) => ct_filter from c | None => ct_new end).
    set (size := match found with Some (_, k) => k | None => _ end).
    assert (Hsz : a <= size). { unfold size. destruct found as [[c k]|]; [apply (HW c k eq_refl)|destruct (_ || _); lia]. }
    destruct (f_empty T kept) eqn:Ek.
    - assert (Hp : a <= 2 ^ Nat.min (d - 1) a - 1) by (apply pow_min; exact Ha).
      destruct (search_sound (S (Nat.min (d - 1) a)) b ub (Nat.min (d - 1) a) a s Hs ltac:(lia) Hp) as [R1 S1].
      destruct (f_search T G _ (sub b) b ub _ a s) as [[c ub1] s1]. cbn [fst snd] in R1, S1.
      assert (K : forall c', snd_f (sub b) (Nat.min (d - 1) a) a c' -> snd_f (sub b) (Nat.min (d - 1) a) size (ct_filter a c')).
      { intros c' H x Hx. apply ct_filter_sub in Hx. apply (solu_mono (Nat.min (d - 1) a) a); [apply H; apply Hx|lia|exact Hsz]. }
      destruct (f_empty T c).
      + destruct (search_sound (S (Nat.min (d - 1) a)) b ub1 (Nat.min (d - 1) a) a s1 S1 ltac:(lia) Hp) as [R2 S2].
        destruct (f_search T G _ (sub b) b ub1 _ a s1) as [[c2 ub2] s2]. cbn [fst snd] in *.
        split; [exact S2|]. split; [lia|]. apply K. exact R2.
      + cbn [fst snd] in *. split; [exact S1|]. split; [lia|]. apply K. exact R1.
    - cbn [fst snd]. split; [exact Hs|]. split; [lia|]. unfold kept, size in *. destruct found as [[c k]|]; [|discriminate].
      intros x Hx. apply ct_filter_sub in Hx. apply (HW c k eq_refl). apply Hx.
  Qed.

  Lemma construct_sound : forall fuel x b d0 n0 s, sinv s -> solu d0 n0 (sub b) x ->
    let r := f_construct T G fuel x (sub b) b d0 n0 s in
    sinv (snd r) /\ (forall t, fst r = Some t -> good_tree d0 (sub b) x t).
  Proof.
    induction fuel as [|fuel IH]; intros x b d0 n0 s Hs Hx; cbn zeta.
    - (* no fuel: only the first part and the depth-two solver *)
      cbn [f_construct]. destruct (_ || _ || (cs_nodes x =? 0)) eqn:E0.
      + cbn [fst snd]. split; [exact Hs|]. intros t Ht. destruct Hx as (t0 & A & _ & ->). cbn in Ht.
        destruct t0 as [l|f tl tr]; cbn in Ht; [|discriminate]. injection Ht as <-.
        destruct A as (A1 & A2 & _). cbn in A1, A2. apply good_leaf; assumption.
      + set (two := fc_term G && _ && _). set (s1 := if two then _ else s).
        assert (Hs1 : sinv s1). { unfold s1. destruct two; [|exact Hs]. destruct Hs as (H1 & H2 & H3 & H4). split; [exact H1|]. split; [exact H2|]. split; [intros w Hw; discriminate|exact H4]. }
        destruct two eqn:Et.
        * destruct (t_construct T G x (sub b)) as [t|] eqn:Ec; [|split; [exact Hs1|intros t Ht; discriminate]].
          split; [exact Hs1|]. intros t' Ht. cbn in Ht. injection Ht as <-.
          unfold two in Et. apply andb_true_iff in Et. destruct Et as [Et E2]. apply andb_true_iff in Et. destruct Et as [Et E1].
          apply (good_mono 2); [exact (t_construct_good _ _ _ _ _ Et Hx Ec)|].
          apply negb_true_iff in E1. apply orb_false_iff in E1. destruct E1 as [E1 _]. apply orb_false_iff in E1. destruct E1 as [E1 _].
          apply orb_false_iff in E0. destruct E0 as [E0 _]. apply orb_false_iff in E0. destruct E0 as [E0 _].
          apply Nat.eqb_neq in E0, E1. lia.
        * split; [exact Hs1|intros t Ht; discriminate].
    - cbn [f_construct]. destruct (_ || _ || (cs_nodes x =? 0)) eqn:E0.
      + cbn [fst snd]. split; [exact Hs|]. intros t Ht. destruct Hx as (t0 & A & _ & ->). cbn in Ht.
        destruct t0 as [l|f tl tr]; cbn in Ht; [|discriminate]. injection Ht as <-.
        destruct A as (A1 & A2 & _). cbn in A1, A2. apply good_leaf; assumption.
      + apply orb_false_iff in E0. destruct E0 as [E0 _]. apply orb_false_iff in E0. destruct E0 as [E0 _]. apply Nat.eqb_neq in E0.
        set (two := fc_term G && _ && _). set (s1 := if two then _ else s).
        assert (Hs1 : sinv s1). { unfold s1. destruct two; [|exact Hs]. destruct Hs as (H1 & H2 & H3 & H4). split; [exact H1|]. split; [exact H2|]. split; [intros w Hw; discriminate|exact H4]. }
        clearbody s1.
        destruct (if two then t_construct T G x (sub b) else None) as [t|] eqn:Ec.
        * destruct two eqn:Et; [|discriminate]. split; [exact Hs1|]. intros t' Ht. cbn in Ht. injection Ht as <-.
          unfold two in Et. apply andb_true_iff in Et. destruct Et as [Et E2]. apply andb_true_iff in Et. destruct Et as [Et E1].
          apply (good_mono 2); [exact (t_construct_good _ _ _ _ _ Et Hx Ec)|].
          apply negb_true_iff in E1. apply orb_false_iff in E1. destruct E1 as [E1 _]. apply orb_false_iff in E1. destruct E1 as [E1 _].
          apply Nat.eqb_neq in E1. lia.
        * clear two Ec. destruct (pg_feat (cs_tag x)) as [f|] eqn:Ef; [|split; [exact Hs1|intros t Ht; discriminate]].
          destruct Hx as (t0 & A & Ho & Ex).
          destruct t0 as [l|f' tl tr]; [subst x; discriminate|].
          assert (f' = f) by (subst x; cbn in Ef; congruence). subst f'.
          set (d := Nat.min d0 n0) in *. set (n := Nat.min n0 (2 ^ d - 1)).
          apply allowed_depth_nodes in A. fold d in A. apply allowed_split in A. destruct A as (Of & Hd & Hn & Al & Ar).
          assert (Hl : pg_l (cs_tag x) <= 2 ^ (d - 1) - 1) by (subst x; cbn; destruct Al as (_ & _ & Al & _); apply nodes_le_full; exact Al).
          assert (Hr : pg_r (cs_tag x) <= 2 ^ (d - 1) - 1) by (subst x; cbn; destruct Ar as (_ & _ & Ar & _); apply nodes_le_full; exact Ar).
          rewrite restrict_left, restrict_right in *.
          destruct (child_sound (br_left b f) d n (pg_l (cs_tag x)) s1 Hs1 Hl) as (S2 & D2 & C2).
          destruct (f_child T G (sub (br_left b f)) (br_left b f) d n (pg_l (cs_tag x)) s1) as [[[ls ld] lk] s2]. cbn [fst snd] in S2, D2, C2.
          destruct (child_sound (br_right b f) d n (pg_r (cs_tag x)) s2 S2 Hr) as (S3 & D3 & C3).
          destruct (f_child T G (sub (br_right b f)) (br_right b f) d n (pg_r (cs_tag x)) s2) as [[[rs rd] rk] s3]. cbn [fst snd] in S3, D3, C3.
          destruct (p_find_pair P (cs_val x) ls rs) as [[l r]|] eqn:Ep; [|split; [exact S3|intros t Ht; discriminate]].
          unfold p_find_pair in Ep. apply find_some in Ep. destruct Ep as [Ep Ev]. apply in_prod_iff in Ep. destruct Ep as [Il Ir]. cbn [fst snd] in Ev. apply Heq in Ev.
          destruct (IH l (br_left b f) ld lk s3 S3 (C2 l Il)) as [S4 T4].
          destruct (f_construct T G fuel l (sub (br_left b f)) (br_left b f) ld lk s3) as [lt s4]. cbn [fst snd] in S4, T4.
          destruct (IH r (br_right b f) rd rk s4 S4 (C3 r Ir)) as [S5 T5].
          destruct (f_construct T G fuel r (sub (br_right b f)) (br_right b f) rd rk s4) as [rt s5]. cbn [fst snd] in S5, T5 |- *.
          split; [exact S5|]. intros t Ht. destruct lt as [a|]; [|discriminate]. destruct rt as [c|]; [|discriminate]. injection Ht as <-.
          apply (good_mono d); [|unfold d; lia].
          apply (good_split f a c (sub b) d x l r Of Hd).
          -- rewrite restrict_left. apply (good_mono ld); [apply T4; reflexivity|exact D2].
          -- rewrite restrict_right. apply (good_mono rd); [apply T5; reflexivity|exact D3].
          -- symmetry. exact Ev.
  Qed.

  (** *** The outer loop *)
  Lemma sinv0 : sinv (fstate0 T N).
  Proof.
    split; [apply KInv_empty|]. split; [intros d ev eb []|]. split; intros w Hw; discriminate.
  Qed.

  Lemma solve_sound dp nds all : nds <= 2 ^ dp - 1 -> N = vsize root ->
    snd_f root (Nat.min dp nds) nds (fst (fst (f_solve T G root dp nds all))) /\ sinv (snd (f_solve T G root dp nds all)).
  Proof.
    intros Hn HN. unfold f_solve. rewrite <- HN. assert (Rt : sub [] = root) by apply restrict_nil.
    pose proof (leaf_sound root (Nat.min dp nds) nds [] ct_new) as Hl. destruct (f_leaf T G root [] ct_new) as [res gub]. cbn [fst] in Hl.
    assert (K : forall ps q, (forall p, In p ps -> In p (p_budgets dp nds all)) -> snd_f root (Nat.min dp nds) nds (fst (fst q)) -> sinv (snd q) ->
      snd_f root (Nat.min dp nds) nds (fst (fst (fold_left (f_outer_step T G root) ps q))) /\ sinv (snd (fold_left (f_outer_step T G root) ps q))).
    { induction ps as [|p ps IH]; intros [[res' gub'] s] Hps Hr Hs; cbn [fold_left]; [auto|].
      destruct (budgets_ok dp nds all p (Hps p (or_introl eq_refl)) Hn) as (B1 & B2 & B3 & B4).
      destruct (search_sound (S (fst p)) [] gub' (fst p) (snd p) s Hs B3 B4) as [R1 S1]. rewrite Rt in R1, S1.
      apply IH; [intros p' H'; apply Hps; right; exact H'| |]; unfold f_outer_step.
      - destruct (f_search T G (S (fst p)) root [] gub' (fst p) (snd p) s) as [[c g] s1]. cbn [fst snd] in R1 |- *.
        assert (K2 : forall xs r, (forall x, In x xs -> solu (Nat.min dp nds) nds root x) -> snd_f root (Nat.min dp nds) nds r ->
          snd_f root (Nat.min dp nds) nds (fold_left (p_add P []) xs r)).
        { induction xs as [|x xs IHx]; intros r Hx Hr'; [exact Hr'|]. cbn [fold_left]. apply IHx; [intros y Hy; apply Hx; right; exact Hy|].
          apply snd_padd; [exact Hr'|apply Hx; left; reflexivity]. }
        apply K2; [|exact Hr]. intros x Hx. apply (solu_mono (fst p) (snd p)); [apply R1; exact Hx|lia|lia].
      - destruct (f_search T G (S (fst p)) root [] gub' (fst p) (snd p) s) as [[c g] s1]. exact S1. }
    apply K; [auto|exact Hl|exact sinv0].
  Qed.

  (** Every solution is the value of an allowed tree that tests allowed features, and the tree
      that is returned, if any, has that value and respects the limits. *)
  Lemma ftrees_sound dp nds all x o : nds <= 2 ^ dp - 1 -> N = vsize root -> In (x, o) (f_trees T G root dp nds all) ->
    solu dp nds root x /\ (forall t, o = Some t -> good_tree dp root x t).
  Proof.
    intros Hn HN Hx. unfold f_trees in Hx. assert (Rt : sub [] = root) by apply restrict_nil.
    destruct (solve_sound dp nds all Hn HN) as [HR HS].
    destruct (f_solve T G root dp nds all) as [[res g] s]. cbn [fst snd] in HR, HS.
    set (mds := fst (last (p_budgets dp nds all) (dp, 0))) in *.
    assert (Hm : Nat.min dp nds <= mds <= dp).
    { unfold mds. destruct (Nat.eq_dec nds 0) as [->|Hz].
      - split; [lia|]. unfold p_budgets. destruct ((if all then 1 else 0) =? 1); cbn; [lia|]. rewrite !Nat.min_0_r. cbn. lia.
      - destruct (budgets_last dp nds all) as (p & _ & -> & -> & _); [lia|exact Hn|lia]. }
    assert (K : forall xs q, (forall x, In x xs -> solu (Nat.min dp nds) nds root x) -> sinv (snd q) ->
      (forall y o, In (y, o) (fst q) -> solu dp nds root y /\ (forall t, o = Some t -> good_tree dp root y t)) ->
      forall y o, In (y, o) (fst (fold_left (fun p x => let '(t, s) := f_construct T G mds x root [] mds nds (snd p) in (fst p ++ [(x, t)], s)) xs q)) ->
        solu dp nds root y /\ (forall t, o = Some t -> good_tree dp root y t)).
    { induction xs as [|y xs IH]; intros q Hxs Hq Hp; cbn [fold_left]; [exact Hp|].
      assert (Hy : solu (Nat.min dp nds) nds root y) by (apply Hxs; left; reflexivity).
      assert (Hy2 : solu mds nds (sub []) y) by (rewrite Rt; apply (solu_mono (Nat.min dp nds) nds); [exact Hy|lia|lia]).
      destruct (construct_sound mds y [] mds nds (snd q) Hq Hy2) as [S1 T1]. rewrite Rt in S1, T1.
      destruct (f_construct T G mds y root [] mds nds (snd q)) as [t s1]. cbn [fst snd] in S1, T1.
      apply IH; [intros z Hz; apply Hxs; right; exact Hz|exact S1|].
      cbn [fst]. intros z o' Hz. apply in_app_or in Hz. destruct Hz as [Hz|[Hz|[]]]; [exact (Hp z o' Hz)|].
      injection Hz as <- <-. split; [apply (solu_mono (Nat.min dp nds) nds); [exact Hy|lia|lia]|].
      intros t' Ht'. apply (good_mono mds); [apply T1; exact Ht'|lia]. }
    apply (K (ct_sols res) ([], s)); [exact HR|exact HS|intros y o' []|exact Hx].
  Qed.
End Sound.
