(** The node budget with the data set cache, for a depth up to three: the rebuilt tree has at
    most as many nodes as the solution found by the search. *)
From Coq Require Import List Arith Bool Lia ZArith.
From Verif Require Import Model_FeatureVector Model_Data Model_Node Model_Cache Model_Terminal Model_Solver
  Spec_Tree Proofs_View Proofs_Diff Proofs_Feature Proofs_Calc Proofs_Base Proofs_Terminal Proofs_TermState Proofs_Cache
  Proofs_Search Proofs_NonEmpty Proofs_RecCalc Proofs_RecTree Proofs_Keep Proofs_KeepLow Proofs_Construct Proofs_Outer Proofs_Three.
Import ListNotations.
Local Open Scope nat_scope.

(** ** The data set cache alone *)
Section DataOnly.
  Context (T : task) (G : cfg).
  Definition ne (c : caches) (v : view) (d n : nat) : Prop := is_empty (es_retrieve T (dc_get c v) d n) = false.
  Definition flags (c : caches) : Prop := cc_use_branch c = false /\ cc_use_data c = true.

  Lemma c_retrieve_eq c v b d n : flags c -> c_retrieve T c v b d n = es_retrieve T (dc_get c v) d n.
  Proof. intros [H1 H2]. unfold c_retrieve. rewrite H1, H2. cbn [is_empty init_sol value_node nd_feat nd_lab]. apply retrieve_self. Qed.
  Lemma c_optimal_eq c v b d n : flags c -> c_is_optimal c v b d n = es_is_optimal (dc_get c v) d n.
  Proof. intros [H1 H2]. unfold c_is_optimal. rewrite H1, H2. reflexivity. Qed.
  Lemma c_store_eq c v b sol d n : flags c -> c_store c v b sol d n = dc_set c v (es_store (dc_get c v) sol (Nat.min d (num_nodes sol)) (num_nodes sol) d n).
  Proof. intros [H1 H2]. unfold c_store. rewrite H1, H2. reflexivity. Qed.
  Lemma c_transfer_eq c b1 b2 : flags c -> c_transfer T c b1 b2 = c.
  Proof. intros [H1 H2]. unfold c_transfer. rewrite H1. cbn [negb]. rewrite orb_true_r. reflexivity. Qed.
  Lemma c_upd_eq c v b lb d n : flags c -> c_upd_lb T c v b lb d n = c \/ c_upd_lb T c v b lb d n = dc_set c v (es_upd_lb T false (dc_get c v) lb d n).
  Proof. intros [H1 H2]. unfold c_upd_lb. destruct (cc_use_lb c); [|auto]. rewrite H1, H2. auto. Qed.
  Lemma flags_set c v es : flags c -> flags (dc_set c v es).
  Proof. auto. Qed.
  Lemma get_same c v v' : dkey (cc_n c) v' = dkey (cc_n c) v -> dc_get c v' = dc_get c v.
  Proof. intro H. unfold dc_get. rewrite H. reflexivity. Qed.
  Lemma get_set_cases c v es v' : (dkey (cc_n c) v' = dkey (cc_n c) v /\ dc_get c v' = dc_get c v /\ dc_get (dc_set c v es) v' = es) \/ (dkey (cc_n c) v' <> dkey (cc_n c) v /\ dc_get (dc_set c v es) v' = dc_get c v').
  Proof.
    rewrite dc_get_set. destruct (bits_eqb _ _) eqn:E.
    - apply bits_eqb_eq in E. left. split; [exact E|]. split; [apply get_same; exact E|reflexivity].
    - right. split; [|reflexivity]. intro H. apply bits_eqb_eq in H. congruence.
  Qed.

  (** What never gets lost. *)
  Definition grow (c0 c : caches) : Prop := flags c /\ cc_n c = cc_n c0
    /\ (forall v d n, ne c0 v d n -> ne c v d n) /\ (forall v d n x, fst_opt (dc_get c0 v) d n x -> fst_opt (dc_get c v) d n x).
  Lemma grow_refl c : flags c -> grow c c.
  Proof. intro H. split; [exact H|]. auto. Qed.
  Lemma grow_trans c1 c2 c3 : grow c1 c2 -> grow c2 c3 -> grow c1 c3.
  Proof. intros (_ & A2 & A3 & A4) (B1 & B2 & B3 & B4). split; [exact B1|]. split; [congruence|]. auto. Qed.
  Lemma grow_store c0 c v b sol d n : grow c0 c -> grow c0 (c_store c v b sol d n).
  Proof.
    intros (H1 & H2 & H3 & H4). rewrite c_store_eq by exact H1. split; [exact H1|]. split; [exact H2|].
    split; intros v' d' n'; [intro H|intros x H]; [apply H3 in H; unfold ne in *|apply H4 in H];
      (destruct (get_set_cases c v (es_store (dc_get c v) sol (Nat.min d (num_nodes sol)) (num_nodes sol) d n) v') as [(_ & A1 & A2)|(_ & A)]; [rewrite A2; rewrite A1 in H|rewrite A; exact H]).
    - apply store_ne. exact H.
    - apply fst_opt_store. exact H.
  Qed.
  Lemma grow_upd c0 c v b lb d n : grow c0 c -> grow c0 (c_upd_lb T c v b lb d n).
  Proof.
    intros (H1 & H2 & H3 & H4). destruct (c_upd_eq c v b lb d n H1) as [-> | ->]; [split; auto|]. split; [exact H1|]. split; [exact H2|].
    split; intros v' d' n'; [intro H|intros x H]; [apply H3 in H; unfold ne in *|apply H4 in H];
      (destruct (get_set_cases c v (es_upd_lb T false (dc_get c v) lb d n) v') as [(_ & A1 & A2)|(_ & A)]; [rewrite A2; rewrite A1 in H|rewrite A; exact H]).
    - rewrite upd_ne. exact H.
    - apply fst_opt_upd. exact H.
  Qed.
  Lemma grow_transfer c0 c b1 b2 : grow c0 c -> grow c0 (c_transfer T c b1 b2).
  Proof. intro H. rewrite c_transfer_eq by apply H. exact H. Qed.
  Lemma grow_sub c0 fuel v b ub d n s : grow c0 (s_c s) -> grow c0 (s_c (snd (solve_sub T G fuel v b ub d n s))).
  Proof.
    apply (keep_sub T G (fun s => grow c0 (s_c s))); intros; cbn [set_c set_ar set_err s_c] in *; auto using grow_store, grow_upd, grow_transfer.
    unfold in_time. destruct (s_on s0); assumption.
  Qed.
  Lemma time_c s : s_c (snd (in_time G s)) = s_c s.
  Proof. unfold in_time. destruct (s_on s); reflexivity. Qed.
End DataOnly.

Lemma store_key T es sol od sn d n d' n' : is_empty sol = false -> sn <= n' <= n -> od <= d' <= d -> d' <= n' ->
  is_empty (es_retrieve T (es_store es sol od sn d n) d' n') = false.
Proof.
  intros Hs H1 H2 H3. apply retrieve_ne. unfold es_store.
  destruct (existsb (fun e => in_range od sn d n e && e_is d' n' e) es) eqn:Ex.
  - apply existsb_exists in Ex. destruct Ex as (e & He & Hi). apply andb_true_iff in Hi. destruct Hi as [Hr Hi]. apply e_is_spec in Hi.
    exists (if in_range od sn d n e && negb (e_is_opt e) then e_set_opt e sol else e). split; [apply in_or_app; left; apply in_map_iff; eauto|].
    rewrite Hr. cbn [andb]. destruct (e_is_opt e) eqn:Eo; cbn [negb]; [tauto|]. rewrite e_set_opt_eq by exact Hs. cbn [e_d e_n]. unfold e_is_opt. cbn [e_opt]. rewrite Hs. cbn [negb]. tauto.
  - exists (opt_entry d' n' sol). split; [|unfold e_is_opt; cbn [opt_entry e_d e_n e_opt]; rewrite Hs; auto].
    apply in_or_app. right. apply in_map_iff. exists (d', n'). split; [reflexivity|]. apply filter_In. split; [apply in_budgets; lia|].
    cbn [fst snd]. rewrite Ex. reflexivity.
Qed.
Lemma empty_nodes x : is_empty x = true -> num_nodes x = 0.
Proof. unfold is_empty, num_nodes. destruct (nd_feat x); [discriminate|reflexivity]. Qed.

Section Budget.
  Context (T : task) (G : cfg) (HT : good_task T) (root : view) (N : nat).
  Notation nf := (c_nf G).
  Notation mls := (c_mls G).
  Notation cost := (tree_cost (tk_inst T)).
  Notation worst := (tk_worst T).
  Notation V b := (restrict b root).
  Hypothesis Hids : ids_ok N root.
  Hypothesis Hsorted : view_sorted root.
  Hypothesis Hwf : wf_view nf root.
  Hypothesis Hred : forall f x, c_redundant G f = true -> In x (concat root) -> has f x = false.
  Hypothesis Hmls : 1 <= mls.
  Hypothesis Horder : forall v f, In f (c_order G v) <-> f < nf.
  Hypothesis Hworst : within T root.
  Hypothesis Hnl : 1 <= num_labels root.
  Hypothesis Hmay : c_term G = true -> forall f, f < nf -> tk_may T f = true.

  Notation SI := (SInv T G root N false).
  Notation KK := (K T root N).
  Notation gd := (good T G root N false).
  Lemma no_sim : false = true -> c_sim G = true -> mls = 1.
  Proof. discriminate. Qed.
  Lemma no_term : false = true -> c_term G = true -> mls = 1.
  Proof. discriminate. Qed.
  Lemma no_time s : timely false s.
  Proof. intro H. discriminate. Qed.

  Lemma sub_real fuel b ub d n s r s' : d < fuel -> mls <= vsize (V b) -> d <= n <= 2 ^ d - 1 -> SI s ->
    solve_sub T G fuel (V b) b ub d n s = (r, s') -> SI s' /\ (r = init_sol T \/ (wit T G (V b) d r /\ num_nodes r <= n)).
  Proof.
    intros Hd Hsz Hn HS He.
    destruct (solve_sub_contract T G HT root N false Hids Hsorted Hwf Hred Hmls Horder Hworst Hnl no_sim no_term fuel
      b ub d n s r s' Hd Hsz Hn ltac:(intro; discriminate) HS He (no_time _)) as [A1 A2].
    split; [exact A1|]. destruct A2 as [[A2 _]|(A2 & A3 & _)]; auto.
  Qed.

  (** ** Solutions in the cache are also stored with exactly their number of nodes *)
  Definition kid (c : caches) (v : view) (d a : nat) : Prop := a = 0 \/ ne T c v (Nat.min d a) a.
  Definition Dn (c : caches) : Prop :=
    flags c /\ forall v, Forall (fun e => e_is_opt e = true -> kid c v (e_d e) (num_nodes (e_opt e))) (dc_get c v).

  Lemma kid_grow c0 c v d a : grow T c0 c -> kid c0 v d a -> kid c v d a.
  Proof. intros (_ & _ & H & _) [?|?]; [left; assumption|right; auto]. Qed.
  Lemma Dn_store c v b sol d n : is_empty sol = false -> Dn c -> Dn (c_store c v b sol d n).
  Proof.
    intros Hs (H1 & H2). pose proof (grow_store T c c v b sol d n (grow_refl T c H1)) as Hg. split; [apply Hg|].
    intro v'. rewrite c_store_eq in * by exact H1. set (es := es_store _ _ _ _ _ _) in *.
    assert (Hold : Forall (fun e => e_is_opt e = true -> kid (dc_set c v es) v' (e_d e) (num_nodes (e_opt e))) (dc_get c v')).
    { eapply Forall_impl; [|exact (H2 v')]. intros e He Ho. eapply kid_grow; [exact Hg|auto]. }
    destruct (get_set_cases c v es v') as [(_ & A1 & A2)|(_ & A)]; [|rewrite A; exact Hold].
    rewrite A2. unfold es at 2. rewrite A1 in Hold. apply es_store_all; [exact Hs|exact Hold|].
    intros db nb B1 B2 _. cbn [e_opt e_d e_n]. unfold kid. destruct (Nat.eq_dec (num_nodes sol) 0) as [E|E]; [auto|right].
    unfold ne. rewrite A2. apply store_key; [exact Hs|lia..].
  Qed.
  Lemma Dn_upd c v b lb d n : Dn c -> Dn (c_upd_lb T c v b lb d n).
  Proof.
    intros (H1 & H2). pose proof (grow_upd T c c v b lb d n (grow_refl T c H1)) as Hg. split; [apply Hg|].
    intro v'. destruct (c_upd_eq T c v b lb d n H1) as [E|E]; rewrite E in *; [apply H2|]. set (es := es_upd_lb _ _ _ _ _ _) in *.
    assert (Hold : Forall (fun e => e_is_opt e = true -> kid (dc_set c v es) v' (e_d e) (num_nodes (e_opt e))) (dc_get c v')).
    { eapply Forall_impl; [|exact (H2 v')]. intros e He Ho. eapply kid_grow; [exact Hg|auto]. }
    destruct (get_set_cases c v es v') as [(_ & A1 & A2)|(_ & A)]; [|rewrite A; exact Hold].
    rewrite A2. unfold es at 2. rewrite A1 in Hold. apply (upd_all T (fun x d n => kid (dc_set c v es) v' d (num_nodes x))). exact Hold.
  Qed.
  Lemma Dn_sub fuel v b ub d n s : Dn (s_c s) -> Dn (s_c (snd (solve_sub T G fuel v b ub d n s))).
  Proof.
    apply (keep_sub T G (fun s => Dn (s_c s))); intros; cbn [set_c set_ar set_on set_err s_c] in *; auto using Dn_store, Dn_upd.
    - unfold in_time. destruct (s_on s0); assumption.
    - rewrite c_transfer_eq by apply H. exact H.
  Qed.
  Lemma Dn_cached c v d n : Dn c -> kid c v d (num_nodes (es_retrieve T (dc_get c v) d n)).
  Proof.
    intros (_ & H). destruct (es_retrieve_find T (fun _ => True) (dc_get c v) d n) as [-> |(e & A1 & A2 & A3 & A4 & ->)]; [left; reflexivity|].
    specialize (H v). rewrite Forall_forall in H. specialize (H e A1 A4). rewrite A2 in H. exact H.
  Qed.

  (** ** One call *)
  Lemma term_grow c0 c v b ub x d n : grow T c0 c -> grow T c0 (store_term T c v b ub x d n).
  Proof.
    intro H. unfold store_term. destruct (c_is_optimal _ _ _ _ _); [exact H|]. destruct (is_empty x); [apply grow_upd|apply grow_store]; exact H.
  Qed.
  Lemma term_ne c v b ub x d n : flags c -> is_empty x = false -> d <= n -> num_nodes x <= n -> ne T (store_term T c v b ub x d n) v d n.
  Proof.
    intros Hf Hx Hd Hn. unfold store_term. rewrite c_optimal_eq by exact Hf. destruct (es_is_optimal (dc_get c v) d n) eqn:Eo.
    - apply (es_is_optimal_retrieve T (fun _ => True)). exact Eo.
    - rewrite Hx, c_store_eq by exact Hf. unfold ne. set (es := es_store _ _ _ _ _ _).
      destruct (get_set_cases c v es v) as [(_ & _ & A)|(A & _)]; [|contradiction]. rewrite A. apply store_key; [exact Hx|lia..].
  Qed.
  Lemma archive_c s v b d : s_c (update_archive G s v b d) = s_c s.
  Proof. unfold update_archive. destruct (c_sim G); reflexivity. Qed.

  Lemma terminal_kid b ub d n s r s' : mls <= vsize (V b) -> flags (s_c s) -> 1 <= d <= 2 -> d <= n <= 2 ^ d - 1 ->
    solve_terminal T G (V b) b ub d n s = (r, s') -> kid (s_c s') (V b) d (num_nodes r).
  Proof.
    intros Hsz Hf Hd Hn. unfold solve_terminal. assert (Hnl' : 1 <= num_labels (V b)) by (rewrite (V_nl root); exact Hnl).
    assert (Hlt : forall t, (cost (V b) t < worst)%Z) by (intro t; apply cost_lt_worst; assumption).
    destruct (term_one T G HT (V b) b Hmls Hlt (wf_restrict _ _ _ Hwf) Hnl' Hsz n ltac:(lia)) as (A1 & A2 & _).
    assert (Hw : n = 1 /\ d = 1 \/ (n = 2 \/ n = 3) /\ d = 2).
    { assert (d = 1 \/ d = 2) as [-> | ->] by lia; cbn in Hn; lia. }
    set (R := term_solve T nf mls (V b) b n) in *.
    assert (Hw2 : n <> 1 -> wit T G (V b) 2 (r_two R) /\ num_nodes (r_two R) <= 2 /\ wit T G (V b) 2 (r_three R) /\ num_nodes (r_three R) <= 3).
    { intro H. destruct (term_wits T G HT (V b) b Hmls Hlt (fun f => br_has_empty b f root) (wf_restrict _ _ _ Hwf) Hnl' Hsz n ltac:(lia)) as (W1 & W2 & W3 & W4 & _). auto. }
    clearbody R. apply wit_nonempty in A1.
    set (c1 := store_term T (s_c s) (V b) b ub (r_one R) 1 1).
    assert (G1 : grow T c1 c1) by (apply grow_refl; apply (term_grow (s_c s)); apply grow_refl; exact Hf).
    assert (N1 : ne T c1 (V b) 1 1) by (apply term_ne; [exact Hf|exact A1|lia|exact A2]). clearbody c1.
    set (c2 := store_term T c1 (V b) b ub (r_two R) 2 2). assert (G2 : grow T c1 c2) by (apply term_grow; exact G1).
    assert (N2 : n <> 1 -> ne T c2 (V b) 2 2).
    { intro H. destruct (Hw2 H) as (W1 & W2 & _). apply wit_nonempty in W1. apply term_ne; [apply G1|exact W1|lia|exact W2]. } clearbody c2.
    set (c3 := store_term T c2 (V b) b ub (r_three R) 2 3). assert (G3 : grow T c2 c3) by (apply term_grow; apply grow_refl; apply G2).
    assert (N3 : n <> 1 -> ne T c3 (V b) 2 3).
    { intro H. destruct (Hw2 H) as (_ & _ & W1 & W2). apply wit_nonempty in W1. apply term_ne; [apply G2|exact W1|lia|exact W2]. } clearbody c3.
    intro H. injection H as <- <-. rewrite archive_c. cbn [set_c s_c].
    destruct (tk_sdom T _ _); [left; reflexivity|]. unfold kid.
    destruct G3 as (_ & _ & G3 & _). destruct G2 as (_ & _ & G2 & _).
    destruct Hw as [[-> ->]|[Hn3 ->]].
    - destruct (num_nodes (r_one R)) as [|[|]]; [auto|right; cbn; auto|lia].
    - destruct (Hw2 ltac:(lia)) as (_ & W2 & _ & W4). specialize (N2 ltac:(lia)). specialize (N3 ltac:(lia)).
      destruct Hn3 as [-> | ->].
      + destruct (num_nodes (r_two R)) as [|[|[|]]]; [auto|right; cbn; auto|right; cbn; auto|lia].
      + destruct (num_nodes (r_three R)) as [|[|[|[|]]]]; [auto|right; cbn; auto..|lia].
  Qed.
  Lemma flags_features rec v b d n blb fs L : rec_keep (fun s => flags (s_c s)) rec -> flags (s_c (l_st L)) -> flags (s_c (l_st (feature_loop T G rec v b d n blb L fs))).
  Proof.
    intros Hr HL. apply (keep_features T G (fun s => flags (s_c s))); try assumption.
    intros s Hs. unfold in_time. destruct (s_on s); exact Hs.
  Qed.
  Lemma flags_sub fuel : rec_keep (fun s => flags (s_c s)) (solve_sub T G fuel).
  Proof. intros v b ub d n s Hs. apply (grow_sub T G (s_c s) fuel v b ub d n s (grow_refl T _ Hs)). Qed.

  Lemma general_kid fuel b ub d n s r s' : mls <= vsize (V b) -> flags (s_c s) -> num_nodes r <= n ->
    general_case T G (solve_sub T G fuel) (V b) b ub d n s = (r, s') -> kid (s_c s') (V b) d (num_nodes r).
  Proof.
    intros Hsz Hf Hn. unfold general_case.
    assert (Hl : num_nodes (fst (solve_leaf T G (V b) ub)) = 0).
    { destruct (wit_leaf_sol T G HT root Hworst b 0 ub Hsz) as [-> | [H1 _]]; [reflexivity|]. unfold num_nodes. rewrite H1. reflexivity. }
    destruct (solve_leaf T G (V b) ub) as [sols u]. cbn [fst] in Hl.
    destruct (negb (sat_mls G (V b) 2)); [intro H; injection H as <- <-; left; exact Hl|].
    match goal with |- context [let '(a, c) := ?x in _] => destruct x as [sols' u'] end.
    set (blb := compute_lb T G s (V b) b d n).
    pose proof (flags_features (solve_sub T G fuel) (V b) b d n blb (c_order G (V b)) (Loop u' sols' (init_sol T) s) (flags_sub fuel) Hf) as HL.
    set (L := feature_loop _ _ _ _ _ _ _ _ _ _) in *. clearbody L. intro H. injection H as <- <-. rewrite archive_c. cbn [set_c s_c].
    destruct (is_empty (l_sols L)) eqn:Ee; cbn [negb]; [left; apply empty_nodes; exact Ee|].
    unfold kid. destruct (Nat.eq_dec (num_nodes (l_sols L)) 0) as [E|E]; [auto|right].
    rewrite c_store_eq by exact HL. unfold ne. set (es := es_store _ _ _ _ _ _).
    destruct (get_set_cases (s_c (l_st L)) (V b) es (V b)) as [(_ & _ & A)|(A & _)]; [|contradiction]. rewrite A. apply store_key; [exact Ee|lia..].
  Qed.

  Lemma sub_kid fuel b ub d n s r s' : d < fuel -> mls <= vsize (V b) -> d <= n <= 2 ^ d - 1 -> SI s -> Dn (s_c s) ->
    solve_sub T G fuel (V b) b ub d n s = (r, s') ->
    SI s' /\ Dn (s_c s') /\ grow T (s_c s) (s_c s') /\ num_nodes r <= n /\ kid (s_c s') (V b) d (num_nodes r).
  Proof.
    intros Hfu Hsz Hn HS HD He. destruct (sub_real _ _ _ _ _ _ _ _ Hfu Hsz Hn HS He) as [A1 A2].
    assert (A3 : num_nodes r <= n) by (destruct A2 as [-> | [_ A2]]; [cbn; lia|exact A2]).
    pose proof (Dn_sub fuel (V b) b ub d n s HD) as A4. rewrite He in A4. cbn [snd] in A4.
    pose proof (grow_sub T G (s_c s) fuel (V b) b ub d n s (grow_refl T _ ltac:(apply HD))) as A5. rewrite He in A5. cbn [snd] in A5.
    split; [exact A1|]. split; [exact A4|]. split; [exact A5|]. split; [exact A3|].
    destruct fuel as [|fuel]; [lia|]. revert He. cbn [solve_sub].
    pose proof (time_c G s) as Ht. destruct (in_time G s) as [ok s1]. cbn [snd] in Ht. rewrite <- Ht in HD. clear Ht A4 A5 HS.
    destruct ok; cbn [negb]; [|intro H; injection H as <- <-; left; reflexivity].
    unfold reduce_budget. rewrite (gt_sparse T HT).
    assert (Hl : forall u, num_nodes (fst (solve_leaf T G (V b) u)) = 0).
    { intro u. destruct (wit_leaf_sol T G HT root Hworst b 0 u Hsz) as [-> | [H1 _]]; [reflexivity|]. unfold num_nodes. rewrite H1. reflexivity. }
    destruct ((d =? 0) || (n =? 0)) eqn:E0; [intro H; injection H as <- <-; left; apply Hl|].
    apply orb_false_iff in E0. rewrite !Nat.eqb_neq in E0. rewrite c_retrieve_eq by apply HD.
    destruct (negb (is_empty _)); [intro H; injection H as <- <-; apply Dn_cached; exact HD|].
    assert (Hcont : forall s2, Dn (s_c s2) ->
      (if c_term G && (d <=? 2) then solve_terminal T G (V b) b ub d n s2 else general_case T G (solve_sub T G fuel) (V b) b ub d n s2) = (r, s') ->
      kid (s_c s') (V b) d (num_nodes r)).
    { intros s2 D2. destruct (c_term G && (d <=? 2)) eqn:Ec.
      - apply andb_true_iff in Ec. rewrite Nat.leb_le in Ec. apply terminal_kid; [exact Hsz|apply D2|lia|exact Hn].
      - apply general_kid; [exact Hsz|apply D2|exact A3]. }
    destruct (Model_Solver.c_lb G); [|apply Hcont; exact HD].
    assert (D2 : Dn (s_c (snd (update_sim T G s1 (V b) b d n)))).
    { apply (keep_sim T G (fun st => Dn (s_c st))); cbn [set_c s_c].
      - intros _ c v0 b0 lb d0 n0 X. apply Dn_upd. exact X.
      - intros _ c b1 b2 X. rewrite c_transfer_eq by apply X. exact X.
      - exact HD. }
    destruct (update_sim T G s1 (V b) b d n) as [upd s2]. cbn [snd] in D2. rewrite c_retrieve_eq by apply D2.
    destruct (upd && _); [intro H; injection H as <- <-; apply Dn_cached; exact D2|].
    destruct (c_ub G && _); [intro H; injection H as <- <-; left; reflexivity|].
    destruct (tk_eq T _ _); [intro H; injection H as <- <-; left; apply Hl|]. apply Hcont. exact D2.
  Qed.

  (** ** Calls for the whole data set *)
  Definition kids (c : caches) (x : node) : Prop :=
    exists f, nd_feat x = Some f /\ kid c (V (br_left [] f)) 2 (nd_l x) /\ kid c (V (br_right [] f)) 2 (nd_r x).
  Definition cls (c : caches) (x : node) : Prop := num_nodes x <= 2 \/ kids c x \/ fst_opt (dc_get c root) 2 3 x.
  Lemma cls_grow c0 c x : grow T c0 c -> cls c0 x -> cls c x.
  Proof.
    intros Hg [H|[(f & H1 & H2 & H3)|H]]; [left; exact H|right; left|right; right; apply Hg; exact H].
    exists f. split; [exact H1|]. split; eapply kid_grow; eassumption.
  Qed.
  Definition LIb (L : loop) : Prop := SI (l_st L) /\ Dn (s_c (l_st L)) /\ cls (s_c (l_st L)) (l_sols L).

  Lemma SI_time s : SI s -> SI (snd (in_time G s)).
  Proof. intro H. eapply SInv_c; [..|exact H]; unfold in_time; destruct (s_on s); reflexivity. Qed.

  Lemma kid_two c v d m a : (d = 2 /\ m <= 1) \/ (d = 3 /\ m <= 3) -> a <= m -> kid c v (Nat.min (d - 1) m) a -> kid c v 2 a.
  Proof.
    intros Hd Ha [H|H]; [left; exact H|right]. assert (E : Nat.min (Nat.min (d - 1) m) a = Nat.min 2 a) by lia. rewrite E in H. exact H.
  Qed.
  Lemma small_budget d m : (d = 2 /\ m <= 1) \/ (d = 3 /\ m <= 3) -> Nat.min (d - 1) m <= m <= 2 ^ Nat.min (d - 1) m - 1.
  Proof.
    intros [[-> H]|[-> H]]; [destruct m as [|[|m]]; cbn; lia|destruct m as [|[|[|[|m]]]]; cbn; lia].
  Qed.

  Lemma size_b d n f (sw : bool) L L' stop ls :
    let lb := if sw then br_right [] f else br_left [] f in let rb := if sw then br_left [] f else br_right [] f in
    mls <= vsize (V lb) -> mls <= vsize (V rb) -> LIb L -> ((d = 2 /\ ls <= 1) \/ (d = 3 /\ ls <= 3)) -> ((d = 2 /\ n - ls - 1 <= 1) \/ (d = 3 /\ n - ls - 1 <= 3)) ->
    size_step T G (solve_sub T G d) d n f 0 sw (V lb) lb (V rb) rb L ls = (L', stop) -> LIb L'.
  Proof.
    intros lb rb Hl Hr (H1 & H2 & H3) B1 B2. unfold size_step. set (rs := n - ls - 1) in *.
    destruct (lr_lb T G (l_st L) f 0 (V lb) lb _ ls (V rb) rb _ rs) as [[lbd llb] rlb].
    destruct (c_ub G && _); [intro H; injection H as <- <-; exact (conj H1 (conj H2 H3))|].
    destruct (tk_eq T _ _); [intro H; injection H as <- <-; exact (conj H1 (conj H2 H3))|].
    destruct (solve_sub T G d (V lb) lb _ (Nat.min (d - 1) ls) ls (l_st L)) as [lsol s1] eqn:E1.
    destruct (sub_kid d lb _ (Nat.min (d - 1) ls) ls _ _ _ ltac:(lia) Hl (small_budget _ _ B1) H1 H2 E1) as (A1 & A2 & A3 & A4 & A5).
    apply (kid_two _ _ _ _ _ B1 A4) in A5.
    pose proof (time_c G s1) as T1. pose proof (SI_time s1 A1) as A1'. destruct (in_time G s1) as [ok1 s1']. cbn [snd] in T1, A1'. rewrite <- T1 in *. clear T1 A1 s1 E1.
    pose proof (cls_grow _ _ _ A3 H3) as C1.
    destruct ok1; cbn [negb]; [|intro H; injection H as <- <-; exact (conj A1' (conj A2 C1))].
    destruct (is_empty lsol).
    { destruct (lr_lb T G s1' f 0 (V lb) lb _ ls (V rb) rb _ rs) as [[? ?] ?]. intro H. injection H as <- <-. exact (conj A1' (conj A2 C1)). }
    destruct (solve_sub T G d (V rb) rb _ (Nat.min (d - 1) rs) rs s1') as [rsol s2] eqn:E2.
    destruct (sub_kid d rb _ (Nat.min (d - 1) rs) rs _ _ _ ltac:(lia) Hr (small_budget _ _ B2) A1' A2 E2) as (D1 & D2 & D3 & D4 & D5).
    apply (kid_two _ _ _ _ _ B2 D4) in D5.
    pose proof (time_c G s2) as T2. pose proof (SI_time s2 D1) as D1'. destruct (in_time G s2) as [ok2 s2']. cbn [snd] in T2, D1'. rewrite <- T2 in *. clear T2 D1 s2 E2.
    pose proof (cls_grow _ _ _ D3 C1) as C2. pose proof (kid_grow _ _ _ _ _ D3 A5) as A6.
    destruct ok2; cbn [negb]; [|intro H; injection H as <- <-; exact (conj D1' (conj D2 C2))].
    destruct (is_empty rsol).
    { destruct (lr_lb T G s2' f 0 (V lb) lb _ ls (V rb) rb _ rs) as [[? ?] ?]. intro H. injection H as <- <-. exact (conj D1' (conj D2 C2)). }
    set (new := if sw then combine_sols T f rsol lsol 0 else combine_sols T f lsol rsol 0).
    assert (Hnew : cls (s_c s2') new).
    { right. left. exists f. unfold new. destruct sw; rewrite (combine0 T _ _ _ HT); cbn [branch_node nd_feat nd_l nd_r]; auto. }
    destruct (c_ub G && _); intro H; injection H as <- <-; [exact (conj D1' (conj D2 C2))|].
    split; [exact D1'|]. split; [exact D2|]. cbn [l_sols l_st]. destruct (tk_sdom T _ _); assumption.
  Qed.

  Lemma sizes_b (step : loop -> nat -> loop * bool) sizes : forall L,
    (forall L k L' st, In k sizes -> LIb L -> step L k = (L', st) -> LIb L') -> LIb L -> LIb (size_loop step L sizes).
  Proof.
    induction sizes as [|k r IH]; intros L H HL; cbn [size_loop]; [exact HL|].
    destruct (step L k) as [L' st] eqn:E. pose proof (H L k L' st (or_introl eq_refl) HL E) as HL'. destruct st; [exact HL'|].
    apply IH; [|exact HL']. intros L0 k0 L1 st Hk. apply H. right. exact Hk.
  Qed.

  Lemma feature_b d n f L L' : ((d = 2 /\ n = 3) \/ (d = 3 /\ 3 <= n <= 7)) -> LIb L -> feature_step T G (solve_sub T G d) root [] d n f L = Some L' -> LIb L'.
  Proof.
    intros Hdn HL. unfold feature_step. destruct (_ || _ || _); [intro H; injection H as <-; exact HL|].
    rewrite (gt_sparse T HT). cbn [andb]. unfold get_bc. rewrite (gt_bc T HT).
    destruct (negb _ || negb _) eqn:Em; [intro H; injection H as <-; exact HL|].
    apply orb_false_iff in Em. rewrite !negb_false_iff in Em. unfold sat_mls in Em. rewrite !Nat.mul_1_r, !Nat.leb_le in Em.
    set (sizes := seq (min_size d n) (S (max_size d n) - min_size d n)).
    assert (Hsz : forall k, In k sizes -> ((d = 2 /\ k <= 1) \/ (d = 3 /\ k <= 3)) /\ ((d = 2 /\ n - k - 1 <= 1) \/ (d = 3 /\ n - k - 1 <= 3))).
    { intros k Hk. apply in_seq in Hk. unfold min_size, max_size in Hk. destruct Hdn as [[-> ->]|[-> Hn]]; [change (2 ^ (2 - 1) - 1) with 1 in Hk|change (2 ^ (3 - 1) - 1) with 3 in Hk]; lia. }
    assert (EL : split_left f root = V (br_left [] f)) by (rewrite <- (V_left root), restrict_nil; reflexivity).
    assert (ER : split_right f root = V (br_right [] f)) by (rewrite <- (V_right root), restrict_nil; reflexivity). rewrite EL, ER in *.
    clearbody sizes. destruct Em as [Ml Mr].
    destruct (_ <? _); intro H; injection H as <-; (apply sizes_b; [|exact HL]); intros L0 k L1 st Hk H0 H; destruct (Hsz k Hk) as [S1 S2].
    - exact (size_b d n f true L0 L1 st k Mr Ml H0 S1 S2 H).
    - exact (size_b d n f false L0 L1 st k Ml Mr H0 S1 S2 H).
  Qed.
  Lemma features_b d n blb fs : ((d = 2 /\ n = 3) \/ (d = 3 /\ 3 <= n <= 7)) -> forall L, LIb L -> LIb (feature_loop T G (solve_sub T G d) root [] d n blb L fs).
  Proof.
    intro Hdn. induction fs as [|f fs IH]; intros L HL; cbn [feature_loop]; [exact HL|].
    pose proof (time_c G (l_st L)) as T1. pose proof (SI_time (l_st L) ltac:(apply HL)) as T2. destruct (in_time G (l_st L)) as [ok s1]. cbn [snd] in T1, T2.
    assert (HL' : LIb (with_st L s1)) by (unfold LIb in *; cbn [with_st l_st l_sols]; rewrite T1; exact (conj T2 (proj2 HL))).
    destruct ok; cbn [negb]; [|exact HL'].
    destruct (c_lb G && _); [exact HL'|]. destruct (c_lb G && _ && _); [exact HL'|].
    destruct (feature_step _ _ _ _ _ _ _ _ _) as [L'|] eqn:Ef; [|exact HL']. apply IH. eapply feature_b; eassumption.
  Qed.

  Lemma leaf_zero u : mls <= vsize root -> num_nodes (fst (solve_leaf T G root u)) = 0.
  Proof.
    intro Hsz. pose proof (wit_leaf_sol T G HT root Hworst [] 0 u) as H. rewrite restrict_nil in H.
    destruct (H Hsz) as [-> | [H1 _]]; [reflexivity|]. unfold num_nodes. rewrite H1. reflexivity.
  Qed.

  Lemma general_b d n ub s r s' : mls <= vsize root -> ((d = 2 /\ n = 3) \/ (d = 3 /\ 3 <= n <= 7)) -> SI s -> Dn (s_c s) ->
    general_case T G (solve_sub T G d) root [] ub d n s = (r, s') -> cls (s_c s') r.
  Proof.
    intros Hsz Hdn HS HD. unfold general_case. pose proof (leaf_zero ub Hsz) as Hl.
    destruct (solve_leaf T G root ub) as [sols u]. cbn [fst] in Hl.
    destruct (negb (sat_mls G root 2)); [intro H; injection H as <- <-; left; lia|].
    match goal with |- context [let '(a, c) := ?x in _] => assert (Hi : num_nodes (fst x) <= 2) end.
    { destruct (lower_cached (s_c s) root [] n (d - 1)) as [[ld ln]|] eqn:El; [|cbn [fst]; lia].
      assert (Hln : ln <= 2).
      { assert (Hlow : forall k, k <= 2 -> lower_cached (s_c s) root [] n k = Some (ld, ln) -> ln <= 2).
        { intros [|[|[|k]]] Hk; cbn [lower_cached]; [discriminate| | |lia].
          - destruct (c_is_optimal _ _ _ 1 _); [intro H; injection H as <- <-; cbn; lia|discriminate].
          - destruct (c_is_optimal _ _ _ 2 _); [intro H; injection H as <- <-; cbn; lia|].
            destruct (c_is_optimal _ _ _ 1 _); [intro H; injection H as <- <-; cbn; lia|discriminate]. }
        apply (Hlow (d - 1)); [lia|exact El]. }
      assert (Hc : num_nodes (c_retrieve T (s_c s) root [] ld ln) <= 2).
      { destruct HS as [HI _]. pose proof (retrieve_entry T N root _ (s_c s) [] ld ln HI) as Hx. rewrite restrict_nil in Hx.
        destruct Hx as [-> |(_ & e & [He _] & _ & Hnn & Ho & ->)]; [cbn; lia|]. destruct (He Ho) as (_ & Hx & _). lia. }
      destruct (c_ub G && _); cbn [fst]; [lia|]. destruct (add_sol_either sols (c_retrieve T (s_c s) root [] ld ln)) as [-> | ->]; lia. }
    match goal with |- context [let '(a, c) := ?x in _] => destruct x as [sols' u'] end. cbn [fst] in Hi.
    set (blb := compute_lb T G s root [] d n). set (L := feature_loop _ _ _ _ _ _ _ _ _ _).
    assert (HL : LIb L) by (apply features_b; [exact Hdn|]; split; [exact HS|]; split; [exact HD|]; left; exact Hi).
    clearbody L. intro H. injection H as <- <-. rewrite archive_c. cbn [set_c s_c]. destruct HL as (B1 & B2 & B3).
    assert (Hg : grow T (s_c (l_st L)) (s_c (l_st L))) by (apply grow_refl; apply B2).
    eapply cls_grow; [|exact B3]. destruct (is_empty (l_sols L)); cbn [negb]; [apply grow_upd|apply grow_store]; exact Hg.
  Qed.

  (** No optimal solution is stored for the whole data set with the budgets (d, n). *)
  Definition none_at (c : caches) (d n : nat) : Prop := Forall (fun e => e_is_opt e = true -> ~ (e_d e = d /\ e_n e = n)) (dc_get c root).
  Lemma none_empty c d n : none_at c d n -> es_retrieve T (dc_get c root) d n = init_sol T.
  Proof.
    intro H. unfold none_at in H. rewrite Forall_forall in H. destruct (es_retrieve_find T (fun _ => True) (dc_get c root) d n) as [E|(e & A1 & A2 & A3 & A4 & _)]; [exact E|].
    destruct (H e A1 A4). auto.
  Qed.
  Lemma none_opt c d n : none_at c d n -> es_is_optimal (dc_get c root) d n = false.
  Proof.
    intro H. apply not_true_is_false. intro Hx. apply (es_is_optimal_retrieve T (fun _ => True)) in Hx. rewrite (none_empty _ _ _ H) in Hx. discriminate.
  Qed.
  Lemma none_upd c v b lb d0 n0 d n : flags c -> none_at c d n -> none_at (c_upd_lb T c v b lb d0 n0) d n.
  Proof.
    intros H1 H2. destruct (c_upd_eq T c v b lb d0 n0 H1) as [-> | ->]; [auto|]. unfold none_at in *.
    destruct (get_set_cases c v (es_upd_lb T false (dc_get c v) lb d0 n0) root) as [(_ & B1 & B2)|(_ & B)]; [rewrite B2; rewrite B1 in *|rewrite B; auto].
    apply (upd_all T (fun x d1 n1 => ~ (d1 = d /\ n1 = n))). exact H2.
  Qed.

  Lemma terminal_b ub s r s' : mls <= vsize root -> flags (s_c s) -> es_is_optimal (dc_get (s_c s) root) 2 3 = false ->
    solve_terminal T G root [] ub 2 3 s = (r, s') -> cls (s_c s') r.
  Proof.
    intros Hsz Hf Hno. unfold solve_terminal.
    assert (Hlt : forall t, (cost root t < worst)%Z) by (intro t; rewrite <- (restrict_nil root) at 1; apply cost_lt_worst; assumption).
    destruct (term_one T G HT root [] Hmls Hlt Hwf Hnl Hsz 3 ltac:(lia)) as (A1 & A2 & _).
    destruct (term_wits T G HT root [] Hmls Hlt ltac:(intros f H; discriminate) Hwf Hnl Hsz 3 ltac:(lia)) as (W1 & W2 & W3 & W4 & _).
    set (R := term_solve T nf mls root [] 3) in *. clearbody R. apply wit_nonempty in A1. apply wit_nonempty in W1. apply wit_nonempty in W3.
    assert (Hst : forall c x d n, flags c -> es_is_optimal (dc_get c root) 2 3 = false -> is_empty x = false -> n < 3 ->
      flags (store_term T c root [] ub x d n) /\ es_is_optimal (dc_get (store_term T c root [] ub x d n) root) 2 3 = false).
    { intros c x d n Hc Ho Hx Hn. unfold store_term. destruct (c_is_optimal _ _ _ _ _); [auto|]. rewrite Hx, c_store_eq by exact Hc. split; [exact Hc|].
      set (es := es_store _ _ _ _ _ _). destruct (get_set_cases c root es root) as [(_ & _ & A)|(A & _)]; [|contradiction]. rewrite A. unfold es. rewrite store_optimal_larger by exact Hn. exact Ho. }
    destruct (Hst (s_c s) (r_one R) 1 1 Hf Hno A1 ltac:(lia)) as [F1 O1]. set (c1 := store_term T (s_c s) root [] ub (r_one R) 1 1) in *. clearbody c1.
    destruct (Hst c1 (r_two R) 2 2 F1 O1 W1 ltac:(lia)) as [F2 O2]. set (c2 := store_term T c1 root [] ub (r_two R) 2 2) in *. clearbody c2.
    intro H. injection H as <- <-. rewrite archive_c. cbn [set_c s_c]. destruct (tk_sdom T _ _); [left; cbn; lia|]. right. right.
    unfold store_term. rewrite c_optimal_eq by exact F2. rewrite O2, W3, c_store_eq by exact F2. set (es := es_store _ _ _ _ _ _).
    destruct (get_set_cases c2 root es root) as [(_ & _ & A)|(A & _)]; [|contradiction]. rewrite A. apply store_fst; [exact W3|exact O2|lia..].
  Qed.

  Lemma root_call d n ub s r s' : mls <= vsize root -> ((d = 2 /\ n = 3) \/ (d = 3 /\ 3 <= n <= 7)) -> SI s -> Dn (s_c s) -> none_at (s_c s) d n ->
    solve_sub T G (S d) root [] ub d n s = (r, s') -> cls (s_c s') r.
  Proof.
    intros Hsz Hdn HS HD Hno. cbn [solve_sub].
    pose proof (time_c G s) as T1. pose proof (SI_time s HS) as T2. destruct (in_time G s) as [ok s1]. cbn [snd] in T1, T2. rewrite <- T1 in *. clear T1 HS s.
    destruct ok; cbn [negb]; [|intro H; injection H as <- <-; left; cbn; lia].
    unfold reduce_budget. rewrite (gt_sparse T HT).
    assert (E0 : (d =? 0) || (n =? 0) = false) by (apply orb_false_iff; rewrite !Nat.eqb_neq; lia). rewrite E0.
    rewrite c_retrieve_eq by apply HD. rewrite (none_empty _ _ _ Hno). cbn [is_empty init_sol value_node nd_feat nd_lab negb].
    assert (Hcont : forall s2, SI s2 -> Dn (s_c s2) -> none_at (s_c s2) d n ->
      (if c_term G && (d <=? 2) then solve_terminal T G root [] ub d n s2 else general_case T G (solve_sub T G d) root [] ub d n s2) = (r, s') -> cls (s_c s') r).
    { intros s2 S2 D2 N2. destruct (c_term G && (d <=? 2)) eqn:Ec.
      - apply andb_true_iff in Ec. rewrite Nat.leb_le in Ec. destruct Hdn as [[-> ->]|[-> _]]; [|lia].
        apply terminal_b; [exact Hsz|apply D2|apply none_opt; exact N2].
      - apply general_b; assumption. }
    destruct (Model_Solver.c_lb G); [|apply Hcont; assumption].
    assert (D2 : Dn (s_c (snd (update_sim T G s1 root [] d n))) /\ none_at (s_c (snd (update_sim T G s1 root [] d n))) d n).
    { apply (keep_sim T G (fun st => Dn (s_c st) /\ none_at (s_c st) d n)); cbn [set_c s_c].
      - intros _ c v0 b0 lb d0 n0 [X1 X2]. split; [apply Dn_upd; exact X1|apply none_upd; [apply X1|exact X2]].
      - intros _ c b1 b2 [X1 X2]. rewrite c_transfer_eq by apply X1. auto.
      - auto. }
    assert (S2 : SI (snd (update_sim T G s1 root [] d n))).
    { destruct (update_sim T G s1 root [] d n) as [upd s2] eqn:Eu. rewrite <- (restrict_nil root) in Eu at 1.
      apply (update_sim_spec T G HT root N false) in Eu; try assumption; try apply no_sim; try apply no_term. apply Eu. }
    destruct (update_sim T G s1 root [] d n) as [upd s2]. cbn [snd] in D2, S2. destruct D2 as [D2 N2]. rewrite c_retrieve_eq by apply D2.
    rewrite (none_empty _ _ _ N2). cbn [is_empty init_sol value_node nd_feat nd_lab negb]. rewrite andb_false_r.
    destruct (c_ub G && _); [intro H; injection H as <- <-; left; cbn; lia|].
    destruct (tk_eq T _ _); [intro H; injection H as <- <-; left; rewrite leaf_zero by exact Hsz; lia|]. apply Hcont; assumption.
  Qed.

  (** ** What is stored for the whole data set *)
  Definition Dr (M : nat) (c : caches) : Prop := Forall (fun e => e_is_opt e = true -> e_d e <= 2 \/ e_n e <= M) (dc_get c root).
  Lemma Dr_mono M M' c : M <= M' -> Dr M c -> Dr M' c.
  Proof. intros H. apply Forall_impl. intros e He Ho. specialize (He Ho). lia. Qed.
  Lemma Dr_none M c n : M < n -> Dr M c -> none_at c 3 n.
  Proof. intros H. apply Forall_impl. intros e He Ho. specialize (He Ho). lia. Qed.
  Lemma Dr_upd M c v b lb d n : flags c -> Dr M c -> Dr M (c_upd_lb T c v b lb d n).
  Proof.
    intros H1 H2. destruct (c_upd_eq T c v b lb d n H1) as [-> | ->]; [auto|]. unfold Dr in *.
    destruct (get_set_cases c v (es_upd_lb T false (dc_get c v) lb d n) root) as [(_ & B1 & B2)|(_ & B)]; [rewrite B2; rewrite B1 in *|rewrite B; auto].
    apply (upd_all T (fun x d1 n1 => d1 <= 2 \/ n1 <= M)). exact H2.
  Qed.
  Lemma Dr_store M c v b sol d n : flags c -> Dr M c -> is_empty sol = false -> d <= 2 \/ n <= M -> Dr M (c_store c v b sol d n).
  Proof.
    intros H1 H2 Hs Hd. rewrite c_store_eq by exact H1. unfold Dr in *.
    set (es := es_store _ _ _ _ _ _) in *. destruct (get_set_cases c v es root) as [(K1 & B1 & B2)|(_ & B)]; [|rewrite B; auto].
    rewrite B2. unfold es. rewrite B1 in H2. apply es_store_all; [exact Hs|exact H2|]. intros db nb D1 D2 _. cbn [e_opt e_d e_n]. lia.
  Qed.
  Definition low (M : nat) (s : st) : Prop := flags (s_c s) /\ Dr M (s_c s).
  Lemma low_time M s : low M s -> low M (snd (in_time G s)).
  Proof. intro H. unfold in_time. destruct (s_on s); exact H. Qed.
  Lemma low_upd M s c v b lb d n : low M (set_c s c) -> low M (set_c s (c_upd_lb T c v b lb d n)).
  Proof.
    intros [H1 H2]. cbn [set_c s_c] in *. split; [|apply Dr_upd; assumption]. apply (grow_upd T c c v b lb d n (grow_refl T c H1)).
  Qed.
  Lemma low_transfer M s c b1 b2 : low M (set_c s c) -> low M (set_c s (c_transfer T c b1 b2)).
  Proof. intros [H1 H2]. cbn [set_c s_c] in *. rewrite c_transfer_eq by exact H1. split; assumption. Qed.
  Lemma low_store M s c v b sol d n : d <= 2 \/ n <= M -> is_empty sol = false -> low M (set_c s c) -> low M (set_c s (c_store c v b sol d n)).
  Proof.
    intros Hd Hs [H1 H2]. cbn [set_c s_c] in *. split; [|apply Dr_store; assumption]. apply (grow_store T c c v b sol d n (grow_refl T c H1)).
  Qed.
  Lemma low_calls M fuel : low_rec (low M) (solve_sub T G fuel).
  Proof.
    apply (low_sub T G (low M)); try assumption.
    - apply (gt_sparse T HT).
    - intro s. apply low_time.
    - intros s a H. exact H.
    - intros s H. exact H.
    - intros s c v b sol d n Hd. apply low_store. auto.
    - intros s c v b lb d n. apply low_upd.
    - intros s c b1 b2. apply low_transfer.
  Qed.
  Lemma low_top M n fuel ub s : M <= n -> low M s -> low n (snd (solve_sub T G (S fuel) root [] ub 3 n s)).
  Proof.
    intros HM H0. assert (Hs : low n s) by (destruct H0 as [H1 H2]; split; [exact H1|exact (Dr_mono _ _ _ HM H2)]). clear H0 HM. cbn [solve_sub].
    pose proof (low_time n s Hs) as F. destruct (in_time G s) as [ok s1]. cbn [snd] in F.
    destruct ok; cbn [negb]; [|exact F]. unfold reduce_budget. rewrite (gt_sparse T HT).
    destruct (_ || _); [exact F|]. destruct (negb (is_empty _)); [exact F|]. change (3 <=? 2) with false. rewrite andb_false_r.
    assert (Hc : forall s2, low n s2 -> low n (snd (general_case T G (solve_sub T G fuel) root [] ub 3 n s2))).
    { intros s2 F2. unfold general_case. destruct (solve_leaf T G root ub) as [sols u].
      destruct (negb (sat_mls G root 2)); [exact F2|].
      match goal with |- context [let '(a, c) := ?x in _] => destruct x as [sols' u'] end.
      cbn [snd].
      match goal with |- context [feature_loop T G ?rec root [] 3 n ?blb ?L ?fs] =>
        assert (H : low n (l_st (feature_loop T G rec root [] 3 n blb L fs)));
        [apply (low_features T G (low n) (low_time n)); [lia|apply low_calls|exact F2]|set (L' := feature_loop T G rec root [] 3 n blb L fs) in *] end.
      unfold low. rewrite archive_c. fold (low n (set_c (l_st L') (s_c (l_st L')))) in H. 
      assert (H' : low n (set_c (l_st L') (s_c (l_st L')))) by exact H.
      destruct (is_empty (l_sols L')) eqn:E; cbn [negb]; [apply (low_upd n _ _ root [] _ 3 n H')|].
      apply (low_store n _ _ root [] _ 3 n ltac:(right; lia) E H'). }
    destruct (Model_Solver.c_lb G); [|apply Hc; exact F].
    pose proof (low_sim T G (low n) (low_upd n) (low_transfer n) s1 root [] 3 n F) as F1.
    destruct (update_sim T G s1 root [] 3 n) as [upd s2]. cbn [snd] in F1.
    destruct (_ && negb _); [exact F1|]. destruct (_ && tk_sdom T _ _); [exact F1|]. destruct (tk_eq T _ _); [exact F1|]. apply Hc. exact F1.
  Qed.

  (** ** The loop over the budgets *)
  Definition J (M : nat) (s : st) (res : node) : Prop := SI s /\ Dn (s_c s) /\ Dr M (s_c s) /\ cls (s_c s) res.
  Lemma J_c M s s' res : s_c s' = s_c s -> s_ar s' = s_ar s -> J M s res -> J M s' res.
  Proof.
    intros Hc Ha (H1 & H2 & H3 & H4). unfold J. rewrite Hc. split; [eapply SInv_c; eassumption|auto].
  Qed.
  Lemma call_J M d n ub s res r s' : mls <= vsize root -> d <= n <= 2 ^ d - 1 ->
    (n <= 2 \/ (d = 2 /\ n = 3 /\ none_at (s_c s) 2 3) \/ (d = 3 /\ 3 <= n <= 7 /\ M < n)) -> J M s res ->
    solve_sub T G (S d) root [] ub d n s = (r, s') -> J (if d =? 3 then n else M) s' (add_sol res r).
  Proof.
    intros Hsz Hn Hcase (H1 & H2 & H3 & H4) He.
    pose proof He as He'. rewrite <- (restrict_nil root) in He' at 1.
    assert (Hsz' : mls <= vsize (V [])) by (rewrite restrict_nil; exact Hsz).
    destruct (sub_kid (S d) [] ub d n s r s' ltac:(lia) Hsz' Hn H1 H2 He') as (A1 & A2 & A3 & A4 & _).
    split; [exact A1|]. split; [exact A2|]. split.
    - destruct (d =? 3) eqn:E3.
      + apply Nat.eqb_eq in E3. subst d. pose proof (low_top M n 3 ub s ltac:(lia) (conj (proj1 H2) H3)) as H. rewrite He in H. apply H.
      + apply Nat.eqb_neq in E3. assert (Hd : d <= 2) by lia.
        pose proof (low_calls M (S d) root [] ub d n s Hd (conj (proj1 H2) H3)) as H. rewrite He in H. apply H.
    - destruct (add_sol_either res r) as [-> | ->]; [eapply cls_grow; eassumption|].
      destruct Hcase as [Hc|Hc]; [left; lia|]. eapply root_call; [exact Hsz| |exact H1|exact H2| |exact He]; [lia|].
      destruct Hc as [(-> & -> & Hc)|(-> & _ & Hc)]; [exact Hc|eapply Dr_none; eassumption].
  Qed.

  Lemma none_fresh lbf d n : none_at (fresh N false true lbf) d n.
  Proof. constructor. Qed.
  Lemma Dn_fresh lbf : Dn (fresh N false true lbf).
  Proof. split; [split; reflexivity|]. intro v. constructor. Qed.
  Lemma Dr_fresh lbf M : Dr M (fresh N false true lbf).
  Proof. constructor. Qed.

  Lemma time_ar s : s_ar (snd (in_time G s)) = s_ar s.
  Proof. unfold in_time. destruct (s_on s); reflexivity. Qed.

  Lemma nodes_J (P : params) len : p_depth P = 3 -> mls <= vsize root -> forall n0 Q, 1 <= n0 -> n0 + len <= 8 -> J (n0 - 1) (o_st Q) (o_res Q) ->
    let Q' := outer_loop (nodes_step T G P root) Q (seq n0 len) in exists M, J M (o_st Q') (o_res Q').
  Proof.
    intros Hd Hsz. induction len as [|len IH]; intros n0 Q Hn0 Hl HJ; cbn [seq outer_loop]; [eauto|].
    destruct (nodes_step T G P root Q n0) as [Q1 ok] eqn:E1. unfold nodes_step in E1.
    pose proof (time_c G (o_st Q)) as T1. pose proof (time_ar (o_st Q)) as T2. destruct (in_time G (o_st Q)) as [ok0 s0]. cbn [snd] in T1, T2.
    apply (J_c _ _ s0 _ T1 T2) in HJ.
    destruct ok0; cbn [negb] in E1; [|injection E1 as <- <-; cbn [o_st o_res]; eauto].
    rewrite Hd in E1. destruct (solve_sub T G (S (Nat.min 3 n0)) root [] (o_ub Q) (Nat.min 3 n0) n0 s0) as [sol s] eqn:Es. cbv zeta in E1.
    pose proof (time_c G (set_mdf s (int_log2 (n0 + 1)))) as T3. pose proof (time_ar (set_mdf s (int_log2 (n0 + 1)))) as T4.
    destruct (in_time G (set_mdf s (int_log2 (n0 + 1)))) as [ok1 s1]. cbn [snd set_mdf s_c s_ar] in T3, T4. injection E1 as <- <-.
    assert (HJ1 : J n0 s1 (add_sol (o_res Q) sol)).
    { apply (J_c _ s); [exact T3|exact T4|]. clear T3 T4.
      assert (Hb : Nat.min 3 n0 <= n0 <= 2 ^ Nat.min 3 n0 - 1).
      { destruct n0 as [|[|[|n0]]]; [lia|cbn; lia|cbn; lia|]. rewrite Nat.min_l by lia. cbn; lia. }
      apply (call_J (n0 - 1)) with (res := o_res Q) in Es; [|exact Hsz|exact Hb| |exact HJ].
      - destruct (Nat.min 3 n0 =? 3); [exact Es|]. destruct Es as (A1 & A2 & A3 & A4). split; [exact A1|]. split; [exact A2|]. split; [|exact A4].
        eapply Dr_mono; [|exact A3]. lia.
      - destruct (le_lt_dec n0 2); [left; lia|right; right; lia]. }
    destruct ok1; [|cbn [o_st o_res]; eauto]. apply (IH (S n0)); cbn [o_st o_res]; [lia|lia|]. replace (S n0 - 1) with n0 by lia. exact HJ1.
  Qed.

  Lemma depth_J (P : params) lbf Q : mls <= vsize root -> 3 <= p_nodes P -> s_c (o_st Q) = fresh N false true lbf -> J 0 (o_st Q) (o_res Q) ->
    let Q' := outer_loop (depth_step T G P root) Q [2; 3] in exists M, J M (o_st Q') (o_res Q').
  Proof.
    intros Hsz Hp Hc HJ. cbn [outer_loop]. destruct (depth_step T G P root Q 2) as [Q1 ok1] eqn:E1.
    assert (H1 : J 0 (o_st Q1) (o_res Q1)).
    { unfold depth_step in E1. change (2 ^ 2 - 1) with 3 in E1. rewrite Nat.min_r in E1 by lia.
      destruct (solve_sub T G 3 root [] (o_ub Q) 2 3 (o_st Q)) as [sol s] eqn:Es.
      pose proof (time_c G (set_mdf s 2)) as T3. pose proof (time_ar (set_mdf s 2)) as T4.
      destruct (in_time G (set_mdf s 2)) as [ok s1]. cbn [snd set_mdf s_c s_ar] in T3, T4. injection E1 as <- <-. cbn [o_st o_res].
      apply (J_c _ s); [exact T3|exact T4|]. apply (call_J 0 2 3) with (res := o_res Q) in Es; [exact Es|exact Hsz|cbn; lia| |exact HJ].
      right. left. split; [reflexivity|]. split; [reflexivity|]. rewrite Hc. apply none_fresh. }
    destruct ok1; [|eauto]. destruct (depth_step T G P root Q1 3) as [Q2 ok2] eqn:E2.
    assert (H2 : exists M, J M (o_st Q2) (o_res Q2)).
    { unfold depth_step in E2. change (2 ^ 3 - 1) with 7 in E2. set (n := Nat.min (p_nodes P) 7) in *. assert (Hn : 3 <= n <= 7) by (unfold n; lia). clearbody n.
      destruct (solve_sub T G 4 root [] (o_ub Q1) 3 n (o_st Q1)) as [sol s] eqn:Es.
      pose proof (time_c G (set_mdf s 3)) as T3. pose proof (time_ar (set_mdf s 3)) as T4.
      destruct (in_time G (set_mdf s 3)) as [ok s1]. cbn [snd set_mdf s_c s_ar] in T3, T4. injection E2 as <- <-. cbn [o_st o_res]. exists n.
      apply (J_c _ s); [exact T3|exact T4|]. apply (call_J 0 3 n) with (res := o_res Q1) in Es; [exact Es|exact Hsz|cbn; lia| |exact H1].
      right. right. lia. }
    destruct ok2; exact H2.
  Qed.

  (** ** Rebuilding the tree *)
  Lemma construct_zero fuel sol v b k s t s' : construct T G fuel sol v b 0 k s = (Some t, s') -> nodes t = 0.
  Proof.
    destruct fuel as [|fuel]; cbn [construct]; [discriminate|]. cbn [Nat.min Nat.eqb orb].
    destruct (nd_lab sol); intro H; [injection H as <- <-; reflexivity|discriminate].
  Qed.
  Lemma flags_used c : flags c -> cache_used c = true.
  Proof. intros [_ H]. unfold cache_used. rewrite H. apply orb_true_r. Qed.
  Lemma child_leaf b d n s : mls <= vsize (V b) -> flags (s_c s) -> min_size d n = 0 ->
    exists sol, child_sol T G (V b) b d n 0 s = ((sol, 0, 0), s).
  Proof.
    intros Hsz Hf Hm. unfold child_sol. rewrite (flags_used _ Hf), Hm. cbn [Nat.max]. rewrite Nat.sub_0_r. cbn [seq scan_child Nat.eqb].
    destruct (leaf_rng T G HT root Hmls Hworst Hnl b (init_sol T) Hsz ltac:(cbn; lia)) as (_ & _ & Hl). rewrite (Hl eq_refl). rewrite Nat.min_0_r. eauto.
  Qed.
  Lemma flags_child v b d n a s : flags (s_c s) -> flags (s_c (snd (child_sol T G v b d n a s))).
  Proof.
    intro H. unfold child_sol. destruct (if cache_used (s_c s) then _ else None) as [[sol k]|]; [exact H|].
    pose proof (flags_sub (S (Nat.min (d - 1) a)) v b (init_sol T) (Nat.min (d - 1) a) a s H) as H1.
    destruct (solve_sub _ _ _ _ _ _ _ _ s) as [sol s1]. cbn [snd] in H1. destruct (is_empty sol); [|exact H1].
    pose proof (flags_sub (S (Nat.min (d - 1) a)) v b (init_sol T) (Nat.min (d - 1) a) a s1 H1) as H2.
    destruct (solve_sub _ _ _ _ _ _ _ _ s1) as [sol2 s2]. exact H2.
  Qed.
  Definition built := construct_spec T G HT root N false Hids Hsorted Hwf Hred Hmls Horder Hworst Hnl no_sim no_term Hmay.
  Definition child_built := child_good T G HT root N false Hids Hsorted Hwf Hred Hmls Horder Hworst Hnl no_sim no_term.
  Lemma alw_nodes d n v t : alw T G d n v t -> nodes t <= n.
  Proof. intros (_ & _ & _ & H). exact H. Qed.

  Lemma construct_two fuel sol b s t s' : 2 <= fuel -> gd s -> flags (s_c s) -> wit T G (V b) 2 sol -> num_nodes sol <= 2 ->
    construct T G (S fuel) sol (V b) b 2 2 s = (Some t, s') -> nodes t <= 2.
  Proof.
    intros Hfu Hg Hf Hw Hn He. pose proof He as He0. cbn [construct] in He. change (Nat.min 2 2) with 2 in He. change (Nat.min 2 (2 ^ 2 - 1)) with 2 in He. cbn [Nat.eqb orb Nat.leb] in He.
    destruct (num_nodes sol =? 0) eqn:E0.
    { destruct (nd_lab sol); [injection He as <- <-; cbn; lia|discriminate]. }
    apply Nat.eqb_neq in E0. rewrite andb_true_r in He.
    destruct (c_term G && negb (num_nodes sol =? 1)) eqn:Ec.
    { apply andb_true_iff in Ec. destruct Ec as [Ec _].
      destruct (term_construct_spec T G HT Hmls (Hmay Ec) sol (V b) b 2 (le_n 2)) as (t' & A1 & A2 & A3 & A4).
      - apply wf_restrict. exact Hwf.
      - intro t'. apply cost_lt_worst; assumption.
      - intros f t'. rewrite restrict_left. apply cost_lt_worst; assumption.
      - intros f t'. rewrite restrict_right. apply cost_lt_worst; assumption.
      - exact Hw.
      - rewrite A1 in He. injection He as <- <-. lia. }
    clear Ec He0. unfold wit in Hw. unfold num_nodes in Hn, E0. destruct (nd_feat sol) as [f|]; [|lia].
    destruct Hw as (_ & _ & Hl & Hr & tl & tr & Atl & Atr & _). change (2 - 1) with 1 in *. cbn in Hl, Hr.
    rewrite restrict_left, restrict_right in *. set (s0 := set_on s false) in *.
    assert (Hg0 : gd s0) by (destruct Hg as (G1 & G2 & G3 & G4); split; [|split; [|split]]; assumption || reflexivity).
    pose proof (allowed_size _ _ _ _ _ _ Atl) as Sl. pose proof (allowed_size _ _ _ _ _ _ Atr) as Sr.
    destruct (child_sol T G (V (br_left b f)) (br_left b f) 2 2 (nd_l sol) s0) as [[[lsol ld] ls] s1] eqn:E1.
    destruct (child_built (br_left b f) 2 2 (nd_l sol) tl s0 lsol ld ls s1 ltac:(intro; discriminate) Hg0 ltac:(lia) ltac:(cbn; lia) Atl E1) as (G1 & L1 & L2 & L3 & _).
    pose proof (flags_child (V (br_left b f)) (br_left b f) 2 2 (nd_l sol) s0 Hf) as F1. rewrite E1 in F1. cbn [snd] in F1.
    destruct (child_sol T G (V (br_right b f)) (br_right b f) 2 2 (nd_r sol) s1) as [[[rsol rd] rs] s2] eqn:E2.
    destruct (child_built (br_right b f) 2 2 (nd_r sol) tr s1 rsol rd rs s2 ltac:(intro; discriminate) G1 ltac:(lia) ltac:(cbn; lia) Atr E2) as (G2 & R1 & R2 & R3 & _).
    assert (Z1 : nd_l sol = 0 -> ld = 0).
    { intro Hz. rewrite Hz in E1. destruct (child_leaf (br_left b f) 2 2 s0 Sl Hf eq_refl) as (x & Hx). rewrite Hx in E1. injection E1 as _ <- _ _. reflexivity. }
    assert (Z2 : nd_r sol = 0 -> rd = 0).
    { intro Hz. rewrite Hz in E2. destruct (child_leaf (br_right b f) 2 2 s1 Sr F1 eq_refl) as (x & Hx). rewrite Hx in E2. injection E2 as _ <- _ _. reflexivity. }
    destruct (construct T G fuel lsol _ _ ld ls s2) as [lt s3] eqn:E3.
    destruct (built fuel lsol (br_left b f) ld ls s2 lt s3) as (G3 & t1 & -> & B1 & _); try (rewrite Nat.min_l by exact L2); try apply G2; try assumption; [lia|intro; discriminate|].
    destruct (construct T G fuel rsol _ _ rd rs s3) as [rt s4] eqn:E4.
    destruct (built fuel rsol (br_right b f) rd rs s3 rt s4) as (G4 & t2 & -> & C1 & _); try (rewrite Nat.min_l by exact R2); try apply G3; try assumption; [lia|intro; discriminate|].
    injection He as <- <-. rewrite Nat.min_l in B1 by exact L2. rewrite Nat.min_l in C1 by exact R2. apply alw_nodes in B1. apply alw_nodes in C1.
    cbn [nodes]. assert (Hp : forall k, k <= 1 -> 2 ^ k - 1 <= k) by (intros [|[|k]] Hk; cbn; lia).
    pose proof (Hp ld L1). pose proof (Hp rd R1). lia.
  Qed.

  (** A child of the root with its own number of nodes. *)
  Lemma child_found b n a s : mls <= vsize (V b) -> gd s -> flags (s_c s) -> kid (s_c s) (V b) 2 a -> min_size 3 n <= a <= max_size 3 n ->
    exists sol, child_sol T G (V b) b 3 n a s = ((sol, Nat.min 2 a, a), s) /\ wit T G (V b) (Nat.min 2 a) sol /\ num_nodes sol <= a.
  Proof.
    intros Hsz Hg Hf Hk Hm. unfold child_sol. rewrite (flags_used _ Hf), Nat.max_l by lia. change (3 - 1) with 2.
    set (sizes := seq a (S (max_size 3 n) - a)).
    assert (Hs : exists sol, scan_child T G s (V b) b 2 sizes = Some (sol, a)).
    { unfold sizes. destruct (S (max_size 3 n) - a) as [|k] eqn:Ek; [lia|]. cbn [seq scan_child]. destruct (Nat.eq_dec a 0) as [Ha|Ha].
      - subst a. cbn [Nat.eqb]. destruct (leaf_rng T G HT root Hmls Hworst Hnl b (init_sol T) Hsz ltac:(cbn; lia)) as (_ & _ & Hl). rewrite (Hl eq_refl). eauto.
      - rewrite (proj2 (Nat.eqb_neq a 0) Ha). destruct Hk as [Hk|Hk]; [lia|]. rewrite c_retrieve_eq by exact Hf. unfold ne in Hk. rewrite Hk. eauto. }
    destruct Hs as (sol & Hs). rewrite Hs. exists sol. split; [reflexivity|].
    destruct (scan_good T G HT root N false Hmls Hworst Hnl no_sim no_term s b 2 sizes sol a Hg Hsz Hs) as (_ & A2 & A3 & _). auto.
  Qed.
  Lemma rebuilt fuel sol b a s t s' : 3 <= fuel -> a <= 3 -> gd s -> flags (s_c s) -> wit T G (V b) (Nat.min 2 a) sol -> num_nodes sol <= a ->
    construct T G fuel sol (V b) b (Nat.min 2 a) a s = (Some t, s') -> gd s' /\ flags (s_c s') /\ nodes t <= a.
  Proof.
    intros Hfu Ha Hg Hf Hw Hn He.
    assert (Hm : Nat.min (Nat.min 2 a) a = Nat.min 2 a) by lia.
    destruct (built fuel sol b (Nat.min 2 a) a s (Some t) s') as (G1 & t1 & E1 & B1 & _); try (rewrite Hm); try apply Hg; try assumption; [lia|intro; discriminate|].
    split; [exact G1|]. split.
    { pose proof (keep_construct T G (fun st => flags (s_c st))) as Hk. 
      pose proof (Hk ltac:(intros st H; unfold in_time; destruct (s_on st); exact H) ltac:(intros st x H; exact H) ltac:(intros st H; exact H) ltac:(intros st H; exact H)
        ltac:(intros st c v0 b0 x d0 n0 _ H; exact (proj1 (grow_store T c c v0 b0 x d0 n0 (grow_refl T c H))))
        ltac:(intros st c v0 b0 x d0 n0 H; exact (proj1 (grow_upd T c c v0 b0 x d0 n0 (grow_refl T c H))))
        ltac:(intros st c b1 b2 H; cbn [set_c s_c] in *; rewrite c_transfer_eq by exact H; exact H) fuel sol (V b) b (Nat.min 2 a) a s Hf) as H.
      rewrite He in H. exact H. }
    injection E1 as <-. apply alw_nodes in B1. rewrite Hm in B1.
    destruct a as [|[|[|[|a]]]]; cbn in B1; try lia. change (Nat.min 2 2) with 2 in *.
    destruct fuel as [|fuel]; [lia|]. exact (construct_two fuel sol b s t s' ltac:(lia) Hg Hf Hw Hn He).
  Qed.

  Lemma construct_kids x fuel s t s' : mls <= vsize root -> kids (s_c s) x -> 3 <= num_nodes x -> wit T G root 3 x -> SI s -> KK s -> flags (s_c s) -> 3 <= fuel ->
    construct T G (S fuel) x root [] 3 (num_nodes x) s = (Some t, s') -> nodes t <= num_nodes x.
  Proof.
    intros Hsz (f & Ef & Kl & Kr) Hn Hw HS HK Hf Hfu. cbn [construct].
    assert (Hnn : num_nodes x = nd_l x + nd_r x + 1) by (unfold num_nodes; rewrite Ef; reflexivity).
    unfold wit in Hw. rewrite Ef in Hw. destruct Hw as (_ & _ & La & Ra & tl & tr & Atl & Atr & _). change (2 ^ (3 - 1) - 1) with 3 in La, Ra.
    rewrite (Nat.min_l 3) by exact Hn. change (2 ^ 3 - 1) with 7. rewrite (Nat.min_l (num_nodes x)) by lia.
    assert (E0 : (3 =? 0) || (num_nodes x =? 0) || (num_nodes x =? 0) = false) by (rewrite !orb_false_iff, !Nat.eqb_neq; lia).
    rewrite E0. change (3 <=? 2) with false. rewrite andb_false_r, Ef.
    set (s0 := set_on s false).
    assert (Hg : gd s0) by (split; [|split; [|split]]; [exact HS|exact HK|reflexivity|apply no_time]).
    assert (EL : split_left f root = V (br_left [] f)) by (rewrite <- (V_left root), restrict_nil; reflexivity).
    assert (ER : split_right f root = V (br_right [] f)) by (rewrite <- (V_right root), restrict_nil; reflexivity). rewrite EL, ER in *.
    assert (Hmn : min_size 3 (num_nodes x) = num_nodes x - 1 - Nat.min 3 (num_nodes x - 1)) by reflexivity.
    assert (Hmx : max_size 3 (num_nodes x) = Nat.min 3 (num_nodes x - 1)) by reflexivity.
    destruct (child_found (br_left [] f) (num_nodes x) (nd_l x) s0 (allowed_size _ _ _ _ _ _ Atl) Hg Hf Kl ltac:(lia)) as (lsol & E1 & L1 & L2).
    destruct (child_found (br_right [] f) (num_nodes x) (nd_r x) s0 (allowed_size _ _ _ _ _ _ Atr) Hg Hf Kr ltac:(lia)) as (rsol & E2 & R1 & R2).
    rewrite E1, E2.
    destruct (construct T G fuel lsol _ _ _ (nd_l x) s0) as [[lt|] s3] eqn:E3.
    2:{ destruct (construct T G fuel rsol _ _ _ (nd_r x) s3) as [[rt|] s4]; discriminate. }
    destruct (rebuilt fuel lsol _ (nd_l x) s0 lt s3 Hfu La Hg Hf L1 L2 E3) as (G3 & F3 & N3).
    destruct (construct T G fuel rsol _ _ _ (nd_r x) s3) as [[rt|] s4] eqn:E4; [|discriminate].
    destruct (rebuilt fuel rsol _ (nd_r x) s3 rt s4 Hfu Ra G3 F3 R1 R2 E4) as (G4 & F4 & N4).
    intro H. injection H as <- <-. cbn [nodes]. lia.
  Qed.

  Lemma outer_flags (step : outer -> nat -> outer * bool) : (forall Q k, flags (s_c (o_st Q)) -> flags (s_c (o_st (fst (step Q k))))) ->
    forall ks Q, flags (s_c (o_st Q)) -> flags (s_c (o_st (outer_loop step Q ks))).
  Proof.
    intro Hst. induction ks as [|k ks IH]; intros Q HQ; cbn [outer_loop]; [exact HQ|].
    pose proof (Hst Q k HQ) as H. destruct (step Q k) as [Q1 ok]. cbn [fst] in H. destruct ok; [apply IH|]; exact H.
  Qed.
  Lemma flags_outer P : (forall Q k, flags (s_c (o_st Q)) -> flags (s_c (o_st (fst (nodes_step T G P root Q k)))))
    /\ (forall Q k, flags (s_c (o_st Q)) -> flags (s_c (o_st (fst (depth_step T G P root Q k))))).
  Proof.
    split; intros Q k H.
    - unfold nodes_step. pose proof (time_c G (o_st Q)) as T1. destruct (in_time G (o_st Q)) as [ok0 s0]. cbn [snd] in T1. rewrite <- T1 in H.
      destruct ok0; cbn [negb]; [|exact H].
      pose proof (flags_sub (S (Nat.min (p_depth P) k)) root [] (o_ub Q) (Nat.min (p_depth P) k) k s0 H) as H1.
      destruct (solve_sub _ _ _ _ _ _ _ _ s0) as [sol s1]. cbn [snd] in H1. cbv zeta.
      pose proof (time_c G (set_mdf s1 (int_log2 (k + 1)))) as T2. destruct (in_time G _) as [ok1 s2]. cbn [snd fst set_mdf s_c o_st] in *. rewrite T2. exact H1.
    - unfold depth_step. cbv zeta. set (n := Nat.min (p_nodes P) _).
      pose proof (flags_sub (S k) root [] (o_ub Q) k n (o_st Q) H) as H1.
      destruct (solve_sub _ _ _ _ _ _ _ _ (o_st Q)) as [sol s1]. cbn [snd] in H1.
      pose proof (time_c G (set_mdf s1 k)) as T2. destruct (in_time G _) as [ok1 s2]. cbn [snd fst set_mdf s_c o_st] in *. rewrite T2. exact H1.
  Qed.

  (** ** The answer *)
  Theorem solve_budget (P : params) lbf s0 t : mls <= vsize root -> p_depth P <= 3 -> lim_ok P -> SI s0 -> KK s0 -> s_c s0 = fresh N false true lbf ->
    let A := solve T G P root (init_sol T) s0 in a_tree A = Some t -> nodes t <= p_nodes P.
  Proof.
    intros Hsz Hd Hlim HS HK Hc. unfold solve.
    set (s := St (s_c s0) (s_ar s0) (s_tick s0) false true 0 (s_err s0)).
    assert (HS' : SI s) by (eapply SInv_c; [..|exact HS]; reflexivity).
    assert (HK' : KK s) by (eapply K_c; [..|exact HK]; reflexivity).
    pose proof (first_ub_spec T G HT root N false P Hmls Hworst Hnl no_sim no_term Hsz s HS' HK' eq_refl) as HO.
    destruct (first_ub T G P root (init_sol T)) as [res gub].
    assert (Hres : num_nodes res = 0) by (destruct HO as (_ & _ & _ & [B4|[B4 B4']] & _); cbn [o_res] in *; [rewrite B4; reflexivity|lia]).
    set (Q0 := Outer res gub s (p_depth P)) in *.
    match goal with |- context [in_time G (o_st ?q)] => set (Q := q) end.
    assert (HJ0 : J 0 s res).
    { split; [exact HS'|]. cbn [s s_c]. rewrite Hc. split; [apply Dn_fresh|]. split; [apply Dr_fresh|]. left. lia. }
    assert (HJ : p_depth P = 3 -> 3 <= p_nodes P -> exists M, J M (o_st Q) (o_res Q)).
    { intros Hd3 Hp. unfold Q. destruct ((if p_all P then 1 else p_nodes P) =? 1) eqn:Em.
      - assert (Hor : p_all P = true \/ p_nodes P = 1) by (destruct (p_all P); [auto|]; apply Nat.eqb_eq in Em; auto).
        specialize (Hlim Hor). rewrite Hd3 in Hlim. change (2 ^ 3 - 1) with 7 in Hlim.
        apply (nodes_J P (p_nodes P) Hd3 Hsz 1 Q0); [lia|lia|exact HJ0].
      - rewrite Hd3. rewrite (Nat.min_l 3 (p_nodes P)) by exact Hp. change (seq (Nat.min 2 3) (4 - Nat.min 2 3)) with [2; 3].
        apply (depth_J P lbf Q0 Hsz Hp); [exact Hc|exact HJ0]. }
    assert (HQ : s_on (o_st Q) = true /\ o_mds Q <= p_depth P /\ exists cur' cov', cur' <= o_mds Q /\ OI T G root N false P cur' (p_nodes P) cov' Q).
    { assert (HO' : OI T G root N false P 0 (p_nodes P) (fun t => exists l, t = Leaf l /\ l < num_labels root) Q0).
      { destruct HO as (B1 & B2 & B3 & B4 & B5). split; [exact B1|]. split; [exact B2|]. split; [exact B3|]. split; [|exact B5].
        destruct B4 as [B4|[B4 B4']]; [auto|right]. split; [exact B4|lia]. }
      unfold Q. destruct ((if p_all P then 1 else p_nodes P) =? 1) eqn:Em.
      - assert (Hor : p_all P = true \/ p_nodes P = 1) by (destruct (p_all P); [auto|]; apply Nat.eqb_eq in Em; auto).
        specialize (Hlim Hor). destruct (p_nodes P) as [|len] eqn:En.
        + cbn [seq outer_loop]. split; [reflexivity|]. split; [cbn; lia|]. exists 0. eexists. split; [lia|exact HO'].
        + destruct (nodes_loop T G HT root N false P Hids Hsorted Hwf Hred Hmls Horder Hworst Hnl no_sim no_term Hsz
            (S len) len 1 0 _ Q0 HO' eq_refl ltac:(lia) ltac:(cbn; lia) ltac:(lia) ltac:(lia) ltac:(lia) ltac:(intros; intro; discriminate)) as (A1 & A2 & A3).
          split; [exact A1|]. split; [exact A2|]. destruct (A3 (no_time _)) as (cur' & cov' & B1 & B2 & _). exists cur', cov'. auto.
      - set (md := Nat.min (p_depth P) (p_nodes P)). set (d0 := Nat.min 2 md).
        replace (S md - d0) with (S (md - d0)) by (unfold d0; lia).
        destruct (depth_loop T G HT root N false P Hids Hsorted Hwf Hred Hmls Horder Hworst Hnl no_sim no_term Hsz
          (p_nodes P) (md - d0) d0 0 _ Q0 HO' eq_refl ltac:(lia) ltac:(unfold d0, md; lia) ltac:(lia) ltac:(intros; intro; discriminate)) as (A1 & A2 & A3).
        split; [exact A1|]. split; [unfold md, d0 in *; lia|]. destruct (A3 (no_time _)) as (cov' & B2 & _). eexists. exists cov'. split; [apply le_n|exact B2]. }
    destruct HQ as (Q1 & Q2 & cur & cov & C1 & (C2 & C3 & _ & C4 & _)).
    assert (HF : flags (s_c (o_st Q))).
    { pose proof (flags_outer P) as [FN FD]. unfold Q. destruct ((if p_all P then 1 else p_nodes P) =? 1).
      - apply (outer_flags _ FN). cbn [Q0 o_st s s_c]. rewrite Hc. split; reflexivity.
      - apply (outer_flags _ FD). cbn [Q0 o_st s s_c]. rewrite Hc. split; reflexivity. }
    clearbody Q. clear HO HJ0 Hres Q0 res gub.
    destruct (in_time G (o_st Q)) as [proven s1] eqn:Et. destruct (on_time G _ _ _ Et Q1) as (T1 & T2 & T3 & T4 & T5 & T6).
    destruct (nd_sol (o_res Q) =? worst)%Z eqn:Ew; cbn zeta; [cbn [a_tree]; discriminate|].
    set (dep := Nat.min (find_depth _ _ _ _ _ _) _).
    destruct (construct T G (S dep) (o_res Q) root [] dep (num_nodes (o_res Q)) s1) as [ot s2] eqn:Ec.
    cbn [a_sol a_tree a_proven]. intros ->. apply Z.eqb_neq in Ew.
    destruct C4 as [C4|[C4 C4']]; [rewrite C4 in Ew; cbn in Ew; lia|].
    assert (HS1 : SI s1) by (eapply SInv_c; eassumption).
    assert (HK1 : KK s1) by (eapply K_c; eassumption).
    rewrite <- T2 in HF.
    assert (Hdm : dep <= o_mds Q) by (unfold dep; lia).
    assert (Hdw : wit T G root (Nat.min dep (num_nodes (o_res Q))) (o_res Q)).
    { unfold dep. set (from := int_log2 (num_nodes (o_res Q) + 1)). set (top := Nat.min (o_mds Q) (num_nodes (o_res Q))).
      destruct (find_depth_cases T G root false Hmls Hnl no_sim no_term Hsz s1 (o_res Q) (S top - from) from (Nat.max from (S top)) ltac:(lia)) as [(A1 & A2 & A3)|A].
      - set (k := find_depth _ _ _ _ _ _) in *.
        assert (Hk : wit T G root k (o_res Q)).
        { destruct HS1 as [HI _]. rewrite <- (restrict_nil root) in A3 at 1.
          destruct (retrieve_entry T N root _ (s_c s1) [] k (num_nodes (o_res Q)) HI) as [Hx|(_ & e & [He _] & Hdd & Hnn & Ho & Hr)].
          - rewrite A3 in Hx. rewrite Hx in Ew. cbn in Ew. lia.
          - rewrite A3 in Hr. destruct (He Ho) as (W1 & _). rewrite Hdd, <- Hr, restrict_nil in W1. exact W1. }
        eapply wit_mono with (d := Nat.min k (o_mds Q)); [|lia].
        destruct (Nat.min_spec k (o_mds Q)) as [[_ ->]|[_ ->]]; [exact Hk|]. eapply wit_mono; [exact C4|lia].
      - rewrite A. eapply wit_mono; [exact C4|]. unfold top. lia. }
    set (m := num_nodes (o_res Q)) in *. cut (nodes t <= m); [lia|].
    assert (Hb : nodes t <= 2 ^ Nat.min dep m - 1).
    { pose proof Ec as Ec'. pose proof Hdw as Hdw'. rewrite <- (restrict_nil root) in Ec', Hdw' at 1.
      destruct (built (S dep) (o_res Q) [] dep m s1 (Some t) s2 ltac:(lia) ltac:(intro; discriminate) HS1 HK1 (no_time _) Hdw' Ec') as (_ & t' & Et' & D1 & _).
      injection Et' as <-. apply alw_nodes in D1. exact D1. }
    assert (Hcases : Nat.min dep m <= 1 \/ (Nat.min dep m = 2 /\ 3 <= m) \/ (2 <= dep /\ m = 2) \/ (dep = 3 /\ 3 <= m)) by lia.
    destruct Hcases as [Hx|[[Hx Hy]|[[Hx Hy]|[Hx Hy]]]].
    - assert (Nat.min dep m = 0 \/ Nat.min dep m = 1) as [E|E] by lia; rewrite E in Hb; cbn in Hb; lia.
    - rewrite Hx in Hb. cbn in Hb. lia.
    - assert (E2 : construct T G (S dep) (o_res Q) root [] dep 2 s1 = construct T G (S dep) (o_res Q) root [] 2 2 s1).
      { cbn [construct]. rewrite (Nat.min_r dep 2) by exact Hx. reflexivity. }
      rewrite Hy in Ec, Hdw |- *. rewrite E2 in Ec. rewrite (Nat.min_r dep 2) in Hdw by exact Hx. rewrite <- (restrict_nil root) in Ec, Hdw at 1.
      assert (Hs : exists s3, construct T G (S dep) (o_res Q) (V []) [] 2 2 (set_on s1 false) = (Some t, s3)).
      { exists s2. rewrite <- Ec. reflexivity. }
      destruct Hs as (s3 & Hs).
      refine (construct_two dep (o_res Q) [] (set_on s1 false) t s3 Hx _ HF Hdw ltac:(fold m; lia) Hs).
      split; [|split; [|split]]; [exact HS1|exact HK1|reflexivity|apply no_time].
    - destruct (HJ ltac:(lia) ltac:(lia)) as (M & J1 & J2 & J3 & J4). rewrite <- T2 in J4.
      destruct J4 as [J4|[J4|J4]]; [fold m in J4; lia| |].
      + rewrite Hx in Ec, Hdw. rewrite (Nat.min_l 3 m) in Hdw by exact Hy. exact (construct_kids (o_res Q) 3 s1 t s2 Hsz J4 Hy Hdw HS1 HK1 HF ltac:(lia) Ec).
      + exfalso. assert (Hr : c_retrieve T (s_c s1) root [] 2 3 = o_res Q) by (rewrite c_retrieve_eq by exact HF; apply fst_opt_retrieve; exact J4).
        assert (H3 : m <= 3).
        { destruct HS1 as [HI _]. rewrite <- (restrict_nil root) in Hr at 1.
          destruct (retrieve_entry T N root _ (s_c s1) [] 2 3 HI) as [Hz|(_ & e & [He _] & Hdd & Hnn & Ho & Hr')].
          - rewrite Hr in Hz. rewrite Hz in Ew. cbn in Ew. lia.
          - rewrite Hr in Hr'. destruct (He Ho) as (_ & W2 & _). rewrite Hnn, <- Hr' in W2. exact W2. }
        assert (H3' : m = 3) by lia. unfold dep in Hx. rewrite H3' in Hx. change (int_log2 (3 + 1)) with 2 in Hx.
        assert (Hm : o_mds Q = 3) by lia. rewrite Hm in Hx. change (Nat.min 3 3) with 3 in Hx. change (seq 2 (4 - 2)) with [2; 3] in Hx.
        cbn [find_depth] in Hx. fold m in Hx. rewrite H3', Hr, node_eqb_refl, c_optimal_eq in Hx by exact HF.
        rewrite (fst_opt_optimal _ _ _ _ J4) in Hx. cbn in Hx. lia.
  Qed.
End Budget.
