(** The recursive search: soundness of what is cached, and optimality of what is returned.
    With [strong = true] the statements speak about runs in which the clock never ran out and
    give optimality; with [strong = false] they hold for every run and only say that results
    correspond to real trees within the budgets. *)
From Coq Require Import List Arith Bool Lia ZArith.
From Verif Require Import Model_FeatureVector Model_Data Model_Node Model_Cache Model_Terminal Model_Solver
  Spec_Tree Proofs_View Proofs_Diff Proofs_Feature Proofs_Calc Proofs_Base Proofs_Terminal Proofs_TermState Proofs_Cache.
Import ListNotations.
Local Open Scope nat_scope.

(** ** Removing empty leaves *)
Lemma prune_tree t : forall ok_f nl xs,
  fits ok_f nl t -> 1 <= length xs ->
  exists t', fits ok_f nl t' /\ leaves_ok 1 xs t' /\ depth t' <= depth t /\ nodes t' <= nodes t
    /\ forall x, In x xs -> predict t' x = predict t x.
Proof.
  induction t as [l|f tl IHl tr IHr]; intros ok_f nl xs Hf Hx.
  - exists (Leaf l). cbn [leaves_ok]. auto.
  - destruct Hf as (Hok & Hl & Hr). cbn [predict depth nodes].
    pose proof (filter_length_split (fun x => has f x) xs) as Hlen. 
    destruct (le_lt_dec 1 (length (filter (fun x => negb (has f x)) xs))) as [H0|H0];
    destruct (le_lt_dec 1 (length (filter (fun x => has f x) xs))) as [H1|H1].
    + destruct (IHl ok_f nl _ Hl H0) as (tl' & A1 & A2 & A3 & A4 & A5).
      destruct (IHr ok_f nl _ Hr H1) as (tr' & B1 & B2 & B3 & B4 & B5).
      exists (Split f tl' tr'). cbn [fits leaves_ok depth nodes predict]. repeat split; try assumption; try lia.
      intros x Hin. destruct (has f x) eqn:Eh.
      * apply B5. apply filter_In. auto.
      * apply A5. apply filter_In. rewrite Eh. auto.
    + assert (Hall : forall x, In x xs -> has f x = false).
      { intros x Hin. destruct (has f x) eqn:Eh; [|reflexivity].
        assert (In x (filter (fun x => has f x) xs)) by (apply filter_In; auto).
        destruct (filter (fun x => has f x) xs); [contradiction|cbn [length] in H1; lia]. }
      destruct (IHl ok_f nl xs Hl Hx) as (t' & A1 & A2 & A3 & A4 & A5). exists t'. repeat split; try assumption; try lia.
      intros x Hin. rewrite (Hall x Hin). apply A5. exact Hin.
    + assert (Hall : forall x, In x xs -> has f x = true).
      { intros x Hin. destruct (has f x) eqn:Eh; [reflexivity|].
        assert (In x (filter (fun x => negb (has f x)) xs)) by (apply filter_In; rewrite Eh; auto).
        destruct (filter (fun x => negb (has f x)) xs); [contradiction|cbn [length] in H0; lia]. }
      destruct (IHr ok_f nl xs Hr Hx) as (t' & A1 & A2 & A3 & A4 & A5). exists t'. repeat split; try assumption; try lia.
      intros x Hin. rewrite (Hall x Hin). apply A5. exact Hin.
    + exfalso. lia.
Qed.

Lemma sim_custom_sum w old new : sim_custom w old new = zsum (map w (concat (diff_remove old new))).
Proof.
  unfold sim_custom. assert (H : forall v a, fold_left (fun a xs => fold_left (fun a x => (a + w x)%Z) xs a) v a = (a + zsum (map w (concat v)))%Z).
  { induction v as [|xs v IH]; intro a; cbn [fold_left concat]; [cbn [map zsum]; lia|]. rewrite IH, map_app.
    assert (E : forall ys a, fold_left (fun a x => (a + w x)%Z) ys a = (a + zsum (map w ys))%Z).
    { induction ys as [|y ys IHy]; intro a0; cbn [fold_left map zsum]; [lia|]. rewrite IHy. lia. }
    rewrite E. clear. induction xs as [|x xs IHx]; cbn [map zsum app]; lia. }
  rewrite H. lia.
Qed.
Lemma sim_subtract_wsum w m : forall k,
  fold_left (fun a j => (a + w j * Z.of_nat (snd (nth (j - k) m (0%nat, 0%nat))))%Z) (seq k (length m)) 0%Z = wsum_from w k m.
Proof.
  assert (H : forall m k a, fold_left (fun a j => (a + w j * Z.of_nat (snd (nth (j - k) m (0%nat, 0%nat))))%Z) (seq k (length m)) a = (a + wsum_from w k m)%Z).
  { clear m. induction m as [|p m IH]; intros k a; cbn [length seq fold_left wsum_from]; [lia|].
    rewrite Nat.sub_diag. cbn [nth].
    rewrite (Proofs_Terminal.fold_left_ext _ (fun a j => (a + w j * Z.of_nat (snd (nth (j - S k) m (0%nat, 0%nat))))%Z)).
    - rewrite IH. lia.
    - intros a' j Hj. apply in_seq in Hj. replace (j - k) with (S (j - S k)) by lia. reflexivity. }
  intro k. rewrite H. lia.
Qed.

Section Search.
  Context (T : task) (G : cfg) (HT : good_task T) (root : view) (N : nat) (strong : bool).
  Notation nf := (c_nf G).
  Notation mls := (c_mls G).
  Notation cost := (tree_cost (tk_inst T)).
  Notation worst := (tk_worst T).
  Notation V b := (restrict b root).
  Hypothesis Hids : ids_ok N root.
  Hypothesis Hsorted : view_sorted root.
  Hypothesis Hwf : wf_view nf root.
  Hypothesis Hred : forall f x, c_redundant G f = true -> In x (concat root) -> has f x = false.
  Hypothesis Hmls : 1 <= mls.
  Hypothesis Horder : forall v f, In f (c_order G v) <-> f < nf.
  Hypothesis Hworst : within T root.
  Hypothesis Hnl : 1 <= num_labels root.
  Hypothesis Hsim : strong = true -> c_sim G = true -> mls = 1.
  Hypothesis Hterm : strong = true -> c_term G = true -> mls = 1.

  Definition LBs (v : view) (d n : nat) (z : Z) : Prop := strong = true -> LB T G v d n z.
  (** With the terminal solver the results for a budget of two nodes need not be optimal
      (property C46); they still bound the trees with at most one node. *)
  Definition adj (n : nat) : nat := if c_term G && (n =? 2) then 1 else n.
  Definition LBt (v : view) (d n : nat) (z : Z) : Prop := strong = true -> LB T G v d (adj n) z.

  Definition E (v : view) (e : entry) : Prop :=
    (e_is_opt e = true -> wit T G v (e_d e) (e_opt e) /\ num_nodes (e_opt e) <= e_n e /\ LBt v (e_d e) (e_n e) (nd_sol (e_opt e)))
    /\ LBt v (e_d e) (e_n e) (nd_sol (e_lb e)).

  Definition Ar (s : st) : Prop := forall d v b, In (v, b) (s_ar s d) -> v = V b /\ mls <= vsize v.
  Definition SInv (s : st) : Prop := Inv N root E (s_c s) /\ Ar s.

  Definition frame (s s' : st) : Prop :=
    s_on s' = s_on s /\ (s_late s = true -> s_late s' = true) /\ s_err s' = s_err s /\ s_mdf s' = s_mdf s
    /\ (s_on s = false -> s_late s' = s_late s).
  Definition timely (s : st) : Prop := strong = true -> s_late s = false.

  Lemma frame_refl s : frame s s.
  Proof. unfold frame. auto. Qed.
  Lemma frame_trans s1 s2 s3 : frame s1 s2 -> frame s2 s3 -> frame s1 s3.
  Proof. unfold frame. intros (A1 & A2 & A3 & A4 & A5) (B1 & B2 & B3 & B4 & B5). repeat split; try congruence; auto.
    intro H. rewrite B5 by congruence. auto. Qed.
  Lemma frame_timely s s' : frame s s' -> timely s' -> timely s.
  Proof.
    intros (_ & H & _) Ht Hs. specialize (Ht Hs). destruct (s_late s); [|reflexivity]. rewrite H in Ht by reflexivity. exact Ht.
  Qed.

  Lemma in_time_spec s ok s' : in_time G s = (ok, s') ->
    frame s s' /\ s_c s' = s_c s /\ s_ar s' = s_ar s /\ (ok = false -> timely s' -> strong = false).
  Proof.
    unfold in_time, frame, timely. destruct (s_on s) eqn:Eo; intro H; injection H as <- <-; cbn [s_on s_late s_err s_mdf s_c s_ar].
    - repeat split; try congruence. + intros ->. reflexivity.
      + intros Hok Ht. apply negb_false_iff in Hok. destruct strong; [|reflexivity]. rewrite Hok in Ht. specialize (Ht eq_refl). discriminate.
    - repeat split; try congruence. 
  Qed.

  Lemma SInv_c s s' : s_c s' = s_c s -> s_ar s' = s_ar s -> SInv s -> SInv s'.
  Proof. unfold SInv, Ar. intros -> ->. auto. Qed.

  (** ** Facts about views *)
  Lemma V_nl b : num_labels (V b) = num_labels root.
  Proof. unfold num_labels, restrict. apply map_length. Qed.
  Lemma V_left b f : split_left f (V b) = V (br_left b f).
  Proof. apply restrict_left. Qed.
  Lemma V_right b f : split_right f (V b) = V (br_right b f).
  Proof. apply restrict_right. Qed.
  Lemma V_lt b t : (cost (V b) t < worst)%Z.
  Proof. apply cost_lt_worst; assumption. Qed.

  (** ** Lower bounds from the cache *)
  Lemma adj_mono n n' : n' <= n -> adj n' <= adj n.
  Proof.
    intro H. unfold adj. destruct (c_term G); cbn [andb]; [|exact H].
    destruct (Nat.eqb_spec n 2); destruct (Nat.eqb_spec n' 2); lia.
  Qed.
  Lemma adj_le n : adj n <= n.
  Proof. unfold adj. destruct (c_term G && (n =? 2)) eqn:E1; [|lia]. apply andb_true_iff in E1. destruct E1 as [_ E1]. apply Nat.eqb_eq in E1. lia. Qed.
  Lemma LBt_LBs v d n z : (strong = true -> c_term G = true -> n <> 2) -> LBt v d n z -> LBs v d n z.
  Proof.
    intros H1 H2 Hs. specialize (H2 Hs). specialize (H1 Hs). unfold adj in H2. destruct (c_term G); [|exact H2].
    cbn [andb] in H2. destruct (n =? 2) eqn:E2; [apply Nat.eqb_eq in E2; destruct (H1 eq_refl E2)|exact H2].
  Qed.
  Lemma LBs_LBt v d n z : LBs v d n z -> LBt v d n z.
  Proof. intros H Hs. eapply LB_mono; [exact (H Hs)|lia|apply adj_le]. Qed.
  Lemma LBt_mono v d n d' n' z : LBt v d n z -> d' <= d -> n' <= n -> LBt v d' n' z.
  Proof. intros H Hd Hn Hs. eapply LB_mono; [exact (H Hs)|exact Hd|apply adj_mono; exact Hn]. Qed.
  Lemma LBt_zero v d n : LBt v d n 0.
  Proof. intros _. apply LB_zero. exact HT. Qed.
  Lemma LBt_max v d n a b : LBt v d n (nd_sol a) -> LBt v d n (nd_sol b) -> LBt v d n (nd_sol (add_sol_inv a b)).
  Proof. intros Ha Hb. destruct (add_sol_inv_either a b) as [->| ->]; assumption. Qed.

  Lemma E_upd v e lb : E v e -> LBt v (e_d e) (e_n e) (nd_sol lb) -> E v (e_upd_lb e lb).
  Proof. intros [H1 H2] Hlb. split; cbn [e_upd_lb e_opt e_lb e_d e_n]; [exact H1|apply LBt_max; assumption]. Qed.
  Lemma E_new v d n lb : LBt v d n (nd_sol lb) -> E v (e_upd_lb (new_entry T d n) lb).
  Proof.
    intro H. apply E_upd; [|exact H]. split; cbn [new_entry e_opt e_lb e_d e_n]; [|apply LBt_zero].
    unfold e_is_opt. cbn [e_opt new_entry]. discriminate.
  Qed.

  Lemma Inv_upd c b lb d n : Inv N root E c -> LBt (V b) d n (nd_sol lb) -> Inv N root E (c_upd_lb T c (V b) b lb d n).
  Proof.
    intros HI Hlb. apply Inv_upd_lb; [exact Hids|exact HI|apply E_new; exact Hlb|].
    intros e He <- <-. apply E_upd; assumption.
  Qed.

  Lemma Inv_put c b sol d n : Inv N root E c -> wit T G (V b) d sol -> num_nodes sol <= n ->
    (forall db nb, num_nodes sol <= nb <= n -> db <= d -> LBt (V b) db nb (nd_sol sol)) ->
    Inv N root E (c_store c (V b) b sol d n).
  Proof.
    intros HI Hw Hn Hlb. apply Inv_store; [exact Hids|exact HI|eapply wit_nonempty; exact Hw|].
    intros db nb Hnb Hdb. split; cbn [e_opt e_lb e_d e_n].
    - intros _. split; [|split; [lia|apply Hlb; lia]]. eapply wit_mono; [exact Hw|]. lia.
    - apply Hlb; lia.
  Qed.

  Lemma cached_spec c b d n : Inv N root E c ->
    c_retrieve T c (V b) b d n = init_sol T
    \/ (is_empty (c_retrieve T c (V b) b d n) = false /\ wit T G (V b) d (c_retrieve T c (V b) b d n)
        /\ num_nodes (c_retrieve T c (V b) b d n) <= n /\ LBt (V b) d n (nd_sol (c_retrieve T c (V b) b d n))).
  Proof.
    intro HI. destruct (retrieve_entry T N root E c b d n HI) as [H|(H & e & [He _] & <- & <- & Ho & Hr)]; [left; exact H|right].
    rewrite Hr in *. specialize (He Ho). tauto.
  Qed.

  Lemma cached_lb c b d n : Inv N root E c -> LBt (V b) d n (nd_sol (Model_Cache.c_lb c (V b) b d n)).
  Proof.
    intro HI. destruct (lb_entry N root E c b d n HI) as [->|(e & [_ He] & Hd & Hn & ->)]; [apply LBt_zero|].
    eapply LBt_mono; [exact He|exact Hd|exact Hn].
  Qed.

  Lemma compute_lb_spec s b d n : SInv s -> LBt (V b) d n (nd_sol (compute_lb T G s (V b) b d n)).
  Proof.
    intros [HI _]. unfold compute_lb. rewrite (gt_lb T HT), (gt_sparse T HT).
    destruct (Model_Solver.c_lb G); [|apply LBt_zero].
    apply LBt_max; [|apply LBt_zero]. apply LBt_max; [apply LBt_zero|]. apply cached_lb. exact HI.
  Qed.

  (** ** The similarity bound *)
  Lemma sim_bound b eb d n z : strong = true -> c_sim G = true -> mls <= vsize (V eb) -> LB T G (V eb) d n z ->
    LB T G (V b) d n (zsub z (sim_amount T (V eb) (V b))).
  Proof.
    intros Hs Hc Hsz Hlb t Ht. pose proof (Hsim Hs Hc) as Hm1. pose proof Ht as (Hf & _ & Hd & Hn).
    change (length (V b)) with (num_labels (V b)) in Hf. rewrite V_nl in Hf.
    destruct (prune_tree t (ok_feat T G) (num_labels root) (concat (V eb)) Hf) as (t' & A1 & A2 & A3 & A4 & A5);
      [unfold vsize in Hsz; lia|].
    assert (Ht' : alw T G d n (V eb) t').
    { unfold alw, allowed. change (length (V eb)) with (num_labels (V eb)). rewrite V_nl, Hm1. repeat split; try assumption; lia. }
    specialize (Hlb t' Ht').
    assert (Hc' : cost (V eb) t' = cost (V eb) t).
    { rewrite !tree_cost_vsum. apply vsum_ext. intros j x Hx. rewrite A5; [reflexivity|exact Hx]. }
    pose proof (cost_nonneg T HT (V b) t) as H0.
    rewrite Hc' in Hlb.
    assert (Hr : (cost (V eb) t <= cost (V b) t + sim_amount T (V eb) (V b))%Z); [|unfold zsub; lia]. clear Hlb Ht Ht' Hc' A1 A2 A3 A4 A5 t'.
    pose proof (fun k => wc_nonneg T HT k) as Hn'. pose proof (wi_inst _ _ Hworst) as Hu. unfold sim_amount. unfold wc in Hn', Hu. destruct (tk_sim T) as [w|].
    { rewrite sim_custom_sum, diff_remove_restrict by exact Hsorted. rewrite !tree_cost_vsum.
      apply restrict_cost_custom. intros j x Hx. split; [apply (gt_nonneg T HT)|apply (Hu j x _ Hx)]. }
    unfold sim_subtract. rewrite V_nl.
    pose proof (sim_subtract_wsum (tk_wpl T) (diff_metrics (V eb) (V b)) 0) as Hw.
    assert (Hlen : length (diff_metrics (V eb) (V b)) = num_labels root).
    { rewrite diff_metrics_restrict by exact Hsorted. apply map_length. }
    rewrite Hlen in Hw.
    rewrite (Proofs_Terminal.fold_left_ext _ (fun a j => (a + tk_wpl T j * Z.of_nat (snd (nth (j - 0) (diff_metrics (V eb) (V b)) (0%nat, 0%nat))))%Z))
      by (intros; rewrite Nat.sub_0_r; reflexivity).
    rewrite Hw. rewrite diff_metrics_restrict by exact Hsorted.
    pose proof (restrict_cost (tk_wpl T) (fun j x => tk_inst T x j (predict t x)) eb b root 0 (fun k => Hn' k (Inst 0 (fv_make [])))) as Hr.
    specialize (Hr (fun j x Hx => conj (gt_nonneg T HT x j (predict t x)) (Hu j x (predict t x) Hx))).
    rewrite !tree_cost_vsum in *. unfold vsum in *. lia.
  Qed.

  Lemma sim_loop_spec b d n ar : c_sim G = true ->
    forall c lb, Inv N root E c -> LBt (V b) d n (nd_sol lb) ->
    (forall ev eb, In (ev, eb) ar -> ev = V eb /\ mls <= vsize ev) ->
    forall lb' o c', sim_loop T ar (V b) b d n c lb = (lb', o, c') ->
    Inv N root E c' /\ LBt (V b) d n (nd_sol lb').
  Proof.
    intro Hcs. induction ar as [|[ev eb] ar IH]; intros c lb HI Hlb Har lb' o c'; cbn [sim_loop].
    - intro H. injection H as <- <- <-. auto.
    - assert (Har' : forall ev eb, In (ev, eb) ar -> ev = V eb /\ mls <= vsize ev) by (intros; apply Har; right; assumption).
      destruct (Har ev eb (or_introl eq_refl)) as [-> Hsz]. 
      destruct (3 * vsize (V b) <? 2 * vsize (V eb)); [apply IH; assumption|].
      destruct (sim_skip T (V eb) (V b)); [apply IH; assumption|].
      match goal with |- context [add_sol_inv lb ?x] => set (e := x) end.
      assert (He : LBt (V b) d n (nd_sol e)).
      { intro Hs. cbn [e nd_sol]. apply sim_bound; try assumption. apply cached_lb; assumption. }
      destruct (total_difference (diff_metrics (V eb) (V b)) =? 0) eqn:Et.
      + apply Nat.eqb_eq, total_difference_zero in Et; [|exact Hsorted].
        assert (HI' : Inv N root E (c_transfer T c eb b)) by (apply Inv_transfer; assumption).
        destruct (c_is_optimal (c_transfer T c eb b) (V b) b d n).
        * intro H. injection H as <- <- <-. auto.
        * apply IH; try assumption. apply LBt_max; assumption.
      + apply IH; try assumption. apply LBt_max; assumption.
  Qed.

  Lemma set_c_frame s c : frame s (set_c s c).
  Proof. unfold frame, set_c. cbn [s_on s_late s_err s_mdf]. auto. Qed.
  Lemma set_c_SInv s c : SInv s -> Inv N root E c -> SInv (set_c s c).
  Proof. unfold SInv, Ar. cbn [set_c s_c s_ar]. tauto. Qed.

  Lemma update_sim_spec s b d n u s' : SInv s -> update_sim T G s (V b) b d n = (u, s') -> frame s s' /\ SInv s'.
  Proof.
    intros HS. unfold update_sim. case_eq (c_sim G); intro Ec.
    - destruct (sim_loop T (s_ar s d) (V b) b d n (s_c s) init_lb) as [[lb o] c] eqn:El.
      destruct HS as [HI HA].
      assert (H : Inv N root E c /\ LBt (V b) d n (nd_sol lb)).
      { refine (sim_loop_spec b d n (s_ar s d) Ec (s_c s) init_lb HI (LBt_zero _ _ _) _ lb o c El). intros ev eb Hin. eapply HA. exact Hin. }
      destruct H as [HI' Hlb].
      assert (HS' : SInv (set_c s c)) by (apply set_c_SInv; [split; assumption|assumption]).
      destruct (is_empty lb); [intro H; injection H as <- <-; split; [apply set_c_frame|assumption]|].
      destruct o; [intro H; injection H as <- <-; split; [apply set_c_frame|assumption]|].
      destruct (tk_eq T 0 (nd_sol lb)); intro H; injection H as <- <-.
      + split; [apply set_c_frame|assumption].
      + split; [eapply frame_trans; apply set_c_frame|]. apply set_c_SInv; [exact HS'|]. apply Inv_upd; assumption.
    - intro H. injection H as <- <-. split; [apply frame_refl|exact HS].
  Qed.

  Lemma In_set_nth {A} (a : A) : forall l k x, In x (set_nth k a l) -> x = a \/ In x l.
  Proof.
    induction l as [|y l IH]; intros [|k] x; cbn [set_nth In]; intro H; try tauto.
    - destruct H as [H|H]; auto.
    - destruct H as [H|H]; [auto|]. apply IH in H. tauto.
  Qed.

  Lemma archive_spec s b d : SInv s -> mls <= vsize (V b) -> frame s (update_archive G s (V b) b d) /\ SInv (update_archive G s (V b) b d).
  Proof.
    intros [HI HA] Hsz. unfold update_archive. case (c_sim G); [|split; [apply frame_refl|split; assumption]].
    split; [unfold frame, set_ar; cbn [s_on s_late s_err s_mdf]; auto|].
    split; [exact HI|]. intros d' v b' Hin. cbn [set_ar s_ar] in Hin.
    destruct (d' =? d) eqn:Ed; [|eapply HA; exact Hin].
    destruct (length (s_ar s d) <? 2).
    - apply in_app_or in Hin. destruct Hin as [Hin|[Hin|[]]]; [eapply HA; exact Hin|]. injection Hin as <- <-. auto.
    - apply In_set_nth in Hin. destruct Hin as [Hin|Hin]; [injection Hin as -> ->; auto|eapply HA; exact Hin].
  Qed.

  (** ** What a call returns *)
  Definition post (v : view) (d n : nat) (ub r : node) : Prop :=
    (r = init_sol T /\ (strong = true -> (c_ub G = true \/ c_term G = true) /\ forall t, alw T G d n v t -> (nd_sol ub < cost v t)%Z))
    \/ (wit T G v d r /\ num_nodes r <= n /\ LBs v d n (nd_sol r)).

  Lemma wit_leaf b d l : mls <= vsize (V b) -> l < num_labels (V b) -> wit T G (V b) d (leaf_node l (cost (V b) (Leaf l))).
  Proof. intros H1 H2. unfold wit. cbn [leaf_node nd_feat nd_lab nd_sol]. exists l. auto. Qed.

  Lemma leaf_post b d n ub : mls <= vsize (V b) -> (forall t, alw T G d n (V b) t -> exists l, t = Leaf l) ->
    post (V b) d n ub (fst (solve_leaf T G (V b) ub)).
  Proof.
    intros Hsz Hall. destruct (solve_leaf_spec T G HT root Hworst b ub Hsz) as [(l & Hl & -> & Hmin & _)|(-> & _ & Hno)].
    - right. split; [apply wit_leaf; assumption|]. split; [unfold num_nodes; cbn [leaf_node nd_feat]; lia|].
      intros _ t Ht. destruct (Hall t Ht) as [l' ->]. cbn [leaf_node nd_sol]. apply Hmin.
      destruct Ht as (Hf & _). exact Hf.
    - left. split; [reflexivity|]. intros _. split.
      + left. apply (Hno 0). rewrite V_nl. lia.
      + intros t Ht. destruct (Hall t Ht) as [l' ->]. apply Hno. destruct Ht as (Hf & _). exact Hf.
  Qed.

  Lemma zero_leaf d n v t : d = 0 \/ n = 0 -> alw T G d n v t -> exists l, t = Leaf l.
  Proof. intros H (_ & _ & Hd & Hn). destruct t as [l|f tl tr]; [eauto|]. cbn [depth nodes] in Hd, Hn. lia. Qed.

  Lemma small_leaf d n v t : ~ 2 * mls <= vsize v -> alw T G d n v t -> exists l, t = Leaf l.
  Proof.
    intros H Ht. destruct t as [l|f tl tr]; [eauto|]. exfalso. apply allowed_split in Ht.
    destruct Ht as (_ & _ & _ & Hl & Hr). 
    pose proof (allowed_size _ _ _ _ _ _ Hl). pose proof (allowed_size _ _ _ _ _ _ Hr).
    pose proof (vsize_split f v). lia.
  Qed.

  (** ** The terminal solver *)
  Lemma store_term_spec c b ub sol d n : Inv N root E c ->
    (sol = init_sol T /\ strong = false)
    \/ (wit T G (V b) d sol /\ num_nodes sol <= n /\ forall db nb, nb <= n -> db <= d -> LBt (V b) db nb (nd_sol sol)) ->
    Inv N root E (store_term T c (V b) b ub sol d n).
  Proof.
    intros HI H. unfold store_term. destruct (c_is_optimal c (V b) b d n); [exact HI|].
    destruct H as [(-> & Hs)|(Hw & Hn & Hlb)].
    - cbn [is_empty init_sol value_node nd_feat nd_lab]. apply Inv_upd; [exact HI|]. intro H. congruence.
    - rewrite (wit_nonempty _ _ _ _ _ Hw). apply Inv_put; try assumption. intros. apply Hlb; lia.
  Qed.

  Lemma LB_one v d z : LB T G v 1 1 z -> LB T G v d 1 z.
  Proof.
    intros H t (H1 & H2 & H3 & H4). apply H. repeat split; try assumption. pose proof (depth_le_nodes t). lia.
  Qed.

  Lemma V_blind b f : br_has b f = true -> vsize (split_left f (V b)) = 0 \/ vsize (split_right f (V b)) = 0.
  Proof. intro H. apply br_has_empty. exact H. Qed.

  Lemma term_n1 v b : r_two (term_solve T nf mls v b 1) = init_sol T /\ r_three (term_solve T nf mls v b 1) = init_sol T.
  Proof.
    unfold term_solve, term_results. rewrite Nat.eqb_refl.
    destruct (k_tot _ <? Z.of_nat mls)%Z; split; reflexivity.
  Qed.

  Lemma terminal_spec b ub d n s r s' :
    mls <= vsize (V b) -> SInv s -> 1 <= d <= 2 -> d <= n <= 2 ^ d - 1 -> c_term G = true ->
    (strong = true -> n = 3) ->
    solve_terminal T G (V b) b ub d n s = (r, s') -> frame s s' /\ SInv s' /\ post (V b) d n ub r.
  Proof.
    intros Hsz HS Hd Hn Hct Hfull. unfold solve_terminal.
    set (R := term_solve T nf mls (V b) b n). intro H. injection H as <- <-.
    assert (Hwv : wf_view nf (V b)) by (apply wf_restrict; exact Hwf).
    assert (Hnl' : 1 <= num_labels (V b)) by (rewrite V_nl; exact Hnl).
    destruct (term_one T G HT (V b) b Hmls (V_lt b) Hwv Hnl' Hsz n ltac:(lia)) as (A1 & A2 & A3). fold R in A1, A2, A3.
    destruct HS as [HI HA].
    assert (C1 : Inv N root E (store_term T (s_c s) (V b) b ub (r_one R) 1 1)).
    { apply store_term_spec; [exact HI|]. right. split; [exact A1|]. split; [exact A2|].
      intros db nb H1 H2 _. eapply LB_mono; [exact A3|lia|]. pose proof (adj_le nb). lia. }
    assert (B2 : (n = 1 /\ r_two R = init_sol T /\ r_three R = init_sol T /\ strong = false)
      \/ (2 <= n /\ wit T G (V b) 2 (r_two R) /\ num_nodes (r_two R) <= 2 /\ (forall db nb, nb <= 2 -> db <= 2 -> LBt (V b) db nb (nd_sol (r_two R)))
         /\ wit T G (V b) 2 (r_three R) /\ num_nodes (r_three R) <= 3 /\ (strong = true -> LB T G (V b) 2 3 (nd_sol (r_three R))))).
    { destruct (Nat.eq_dec n 1) as [E1|E1].
      - left. assert (strong = false) by (destruct strong; [specialize (Hfull eq_refl); lia|reflexivity]).
        subst R. rewrite E1. destruct (term_n1 (V b) b) as [-> ->]. auto.
      - right. assert (Hn2 : 2 <= n) by lia. split; [exact Hn2|].
        destruct (term_wits T G HT (V b) b Hmls (V_lt b) (V_blind b) Hwv Hnl' Hsz n Hn2) as (W1 & W2 & W3 & W4 & W5 & W6 & _).
        fold R in W1, W2, W3, W4, W5, W6. repeat (split; [assumption|]). split; [|split; [assumption|split; [assumption|]]].
        + intros db nb H1 H2 _. assert (Ha : adj nb <= 1).
          { pose proof (adj_mono _ _ H1). unfold adj in H at 2. rewrite Hct in H. cbn [andb Nat.eqb] in H. exact H. }
          eapply LB_le; [|exact W5]. eapply LB_mono; [apply LB_one with (d := db); exact A3|lia|exact Ha].
        + intro Hs. pose proof (Hterm Hs Hct) as Hm.
          exact (term_three T G HT (V b) b Hmls (V_lt b) (V_blind b) Hwv Hnl' Hsz n Hm Hn2). }
    assert (C2 : Inv N root E (store_term T (store_term T (s_c s) (V b) b ub (r_one R) 1 1) (V b) b ub (r_two R) 2 2)).
    { apply store_term_spec; [exact C1|]. destruct B2 as [(_ & H & _ & H')|(_ & H1 & H2 & H3 & _)]; auto. }
    set (c3 := store_term T _ (V b) b ub (r_three R) 2 3).
    assert (C3 : Inv N root E c3).
    { apply store_term_spec; [exact C2|]. destruct B2 as [(_ & _ & H & H')|(_ & _ & _ & _ & H1 & H2 & H3)]; [auto|]. right.
      split; [exact H1|]. split; [exact H2|]. intros db nb Hb1 Hb2 Hs. eapply LB_mono; [exact (H3 Hs)|exact Hb2|].
      pose proof (adj_le nb). lia. }
    destruct (archive_spec (set_c s c3) b d) as [F S']; [apply set_c_SInv; [split; assumption|exact C3]|exact Hsz|].
    split; [eapply frame_trans; [apply set_c_frame|exact F]|]. split; [exact S'|].
    set (res := match n with 0 => r_three R | 1 => r_one R | 2 => r_two R | _ => r_three R end).
    assert (P : wit T G (V b) d res /\ num_nodes res <= n /\ LBs (V b) d n (nd_sol res)).
    { unfold res. destruct d as [|[|[|d]]]; try lia; cbn [Nat.pow] in Hn.
      - assert (n = 1) as -> by lia. split; [exact A1|]. split; [exact A2|]. intros _. exact A3.
      - assert (Hn' : n = 2 \/ n = 3) by lia. destruct B2 as [(H & _)|(_ & H1 & H2 & H3 & H4 & H5 & H6)]; [lia|].
        destruct Hn' as [E2|E2]; rewrite E2.
        + split; [exact H1|]. split; [exact H2|]. intro Hs. specialize (Hfull Hs). lia.
        + split; [exact H4|]. split; [exact H5|]. exact H6. }
    destruct (tk_sdom T (nd_sol ub) (nd_sol res)) eqn:El; [|right; exact P].
    apply (gt_sdom T HT) in El. left. split; [reflexivity|]. intro Hs. split; [right; exact Hct|].
    intros t Ht. destruct P as (_ & _ & P). specialize (P Hs t Ht). pose proof (cost_nonneg T HT (V b) t). lia.
  Qed.

  (** ** Frames: what no call changes *)
  Lemma update_sim_frame s v b d n : frame s (snd (update_sim T G s v b d n)).
  Proof.
    unfold update_sim. case (c_sim G); [|apply frame_refl].
    destruct (sim_loop T (s_ar s d) v b d n (s_c s) init_lb) as [[lb o] c].
    case (is_empty lb); [apply set_c_frame|]. case o; [apply set_c_frame|].
    case (tk_eq T 0 (nd_sol lb)); cbn [snd]; [apply set_c_frame|]. eapply frame_trans; apply set_c_frame.
  Qed.
  Lemma archive_frame s v b d : frame s (update_archive G s v b d).
  Proof.
    unfold update_archive. case (c_sim G); [|apply frame_refl].
    unfold frame, set_ar. cbn [s_on s_late s_err s_mdf]. auto.
  Qed.
  Lemma terminal_frame v b ub d n s : frame s (snd (solve_terminal T G v b ub d n s)).
  Proof. unfold solve_terminal. cbn [snd]. eapply frame_trans; [apply set_c_frame|apply archive_frame]. Qed.
  Lemma in_time_frame s : frame s (snd (in_time G s)).
  Proof. destruct (in_time G s) as [ok s'] eqn:Ei. apply in_time_spec in Ei. apply Ei. Qed.

  Definition rec_frame (fuel : nat) (rec : solver_fun) : Prop :=
    forall v b ub d n s, d < fuel -> frame s (snd (rec v b ub d n s)).

  Lemma size_step_frame fuel rec d n f bc sw lv lbr rv rbr L ls : rec_frame fuel rec -> d <= fuel -> 1 <= d ->
    frame (l_st L) (l_st (fst (size_step T G rec d n f bc sw lv lbr rv rbr L ls))).
  Proof.
    intros Hr Hd Hd1. unfold size_step.
    destruct (lr_lb T G (l_st L) f bc lv lbr _ ls rv rbr _ _) as [[lb llb] rlb].
    destruct (c_ub G && tk_sdom T (nd_sol (l_ub L)) (nd_sol lb)); [apply frame_refl|].
    destruct (tk_eq T (nd_sol lb) (nd_sol (l_sols L))); [apply frame_refl|].
    match goal with |- context [rec lv lbr ?u ?d1 ?n1 ?s1] => pose proof (Hr lv lbr u d1 n1 s1 ltac:(lia)) as F1; destruct (rec lv lbr u d1 n1 s1) as [lsol s1'] end.
    cbn [snd] in F1. pose proof (in_time_frame s1') as F2. destruct (in_time G s1') as [ok1 s1]. cbn [snd] in F2.
    pose proof (frame_trans _ _ _ F1 F2) as F12.
    destruct ok1; cbn [negb]; [|exact F12].
    destruct (is_empty lsol).
    { destruct (lr_lb T G s1 f bc lv lbr _ ls rv rbr _ _) as [[? ?] ?]. exact F12. }
    match goal with |- context [rec rv rbr ?u ?d1 ?n1 ?s1] => pose proof (Hr rv rbr u d1 n1 s1 ltac:(lia)) as F3; destruct (rec rv rbr u d1 n1 s1) as [rsol s2'] end.
    cbn [snd] in F3. pose proof (in_time_frame s2') as F4. destruct (in_time G s2') as [ok2 s2]. cbn [snd] in F4.
    pose proof (frame_trans _ _ _ F12 (frame_trans _ _ _ F3 F4)) as F14.
    destruct ok2; cbn [negb]; [|exact F14].
    destruct (is_empty rsol).
    { destruct (lr_lb T G s2 f bc lv lbr _ ls rv rbr _ _) as [[? ?] ?]. exact F14. }
    match goal with |- context [if ?c then _ else _] => destruct c end; exact F14.
  Qed.

  Lemma size_loop_frame (step : loop -> nat -> loop * bool) sizes : forall L,
    (forall L k, frame (l_st L) (l_st (fst (step L k)))) -> frame (l_st L) (l_st (size_loop step L sizes)).
  Proof.
    induction sizes as [|k r IH]; intros L H; cbn [size_loop]; [apply frame_refl|].
    pose proof (H L k) as H1. destruct (step L k) as [L' stop]. cbn [fst] in H1.
    destruct stop; [exact H1|]. eapply frame_trans; [exact H1|apply IH; exact H].
  Qed.

  Lemma feature_step_frame fuel rec v b d n f L L' : rec_frame fuel rec -> d <= fuel -> 1 <= d ->
    feature_step T G rec v b d n f L = Some L' -> frame (l_st L) (l_st L').
  Proof.
    intros Hr Hd Hd1. unfold feature_step.
    destruct (br_has b f || negb (tk_may T f) || c_redundant G f); [intro H; injection H as <-; apply frame_refl|].
    destruct (tk_sparse T && c_ub G && (nd_sol (l_ub L) <? get_bc T v b f)%Z); [discriminate|].
    destruct (negb (sat_mls G (split_left f v) 1) || negb (sat_mls G (split_right f v) 1)); [intro H; injection H as <-; apply frame_refl|].
    destruct (vsize (split_left f v) <? vsize (split_right f v)); intro H; injection H as <-;
      apply size_loop_frame; intros L0 k; eapply size_step_frame; eassumption.
  Qed.

  Lemma feature_loop_frame fuel rec v b d n blb fs : rec_frame fuel rec -> d <= fuel -> 1 <= d ->
    forall L, frame (l_st L) (l_st (feature_loop T G rec v b d n blb L fs)).
  Proof.
    intros Hr Hd Hd1. induction fs as [|f fs IH]; intro L; cbn [feature_loop]; [apply frame_refl|].
    pose proof (in_time_frame (l_st L)) as F. destruct (in_time G (l_st L)) as [ok s]. cbn [snd] in F.
    destruct ok; cbn [negb]; [|exact F].
    match goal with |- context [if ?c then _ else _] => destruct c; [exact F|] end.
    match goal with |- context [if ?c then _ else _] => destruct c; [exact F|] end.
    destruct (feature_step T G rec v b d n f (with_st L s)) as [L'|] eqn:Ef; [|exact F].
    eapply feature_step_frame in Ef; try eassumption. eapply frame_trans; [exact F|]. eapply frame_trans; [exact Ef|apply IH].
  Qed.

  Lemma general_frame fuel rec v b ub d n s : rec_frame fuel rec -> d <= fuel -> 1 <= d ->
    frame s (snd (general_case T G rec v b ub d n s)).
  Proof.
    intros Hr Hd Hd1. unfold general_case. destruct (solve_leaf T G v ub) as [sols u].
    destruct (negb (sat_mls G v 2)); [apply frame_refl|].
    match goal with |- context [let '(a, c) := ?x in _] => destruct x as [sols' u'] end.
    cbn [snd]. eapply frame_trans; [|eapply frame_trans; [apply set_c_frame|apply archive_frame]].
    exact (feature_loop_frame fuel rec v b d n (compute_lb T G s v b d n) (c_order G v) Hr Hd Hd1 (Loop u' sols' (init_sol T) s)).
  Qed.

  Lemma solve_sub_frame fuel : rec_frame fuel (solve_sub T G fuel).
  Proof.
    induction fuel as [|fuel IH]; intros v b ub d0 n0 s Hd; [lia|]. cbn [solve_sub].
    pose proof (in_time_frame s) as F. destruct (in_time G s) as [ok s1]. cbn [snd] in F.
    destruct ok; cbn [negb]; [|exact F].
    unfold reduce_budget. rewrite (gt_sparse T HT).
    destruct (d0 =? 0) eqn:E0; cbn [orb]; [exact F|]. destruct (n0 =? 0); [exact F|].
    apply Nat.eqb_neq in E0.
    destruct (negb (is_empty (c_retrieve T (s_c s1) v b d0 n0))); [exact F|].
    assert (Hc : forall s2, frame s s2 ->
      frame s (snd (if c_term G && (d0 <=? 2) then solve_terminal T G v b ub d0 n0 s2
                    else general_case T G (solve_sub T G fuel) v b ub d0 n0 s2))).
    { intros s2 F2. destruct (c_term G && (d0 <=? 2)); (eapply frame_trans; [exact F2|]).
      - apply terminal_frame.
      - apply general_frame with (fuel := fuel); [exact IH|lia|lia]. }
    destruct (Model_Solver.c_lb G); [|apply Hc; exact F].
    pose proof (update_sim_frame s1 v b d0 n0) as F1. destruct (update_sim T G s1 v b d0 n0) as [upd s2]. cbn [snd] in F1.
    pose proof (frame_trans _ _ _ F F1) as F2.
    match goal with |- context [if ?c then _ else _] => destruct c; [exact F2|] end.
    match goal with |- context [if ?c then _ else _] => destruct c; [exact F2|] end.
    match goal with |- context [if ?c then _ else _] => destruct c; [exact F2|] end.
    apply Hc. exact F2.
  Qed.

  (** ** The contract of a call *)
  (** With the depth-two solver and without upper bounds a call of depth three or more can
      lose trees above its bound without saying so; such calls are treated at the end. *)
  Definition full (d n : nat) : Prop := strong = true -> c_term G = true ->
    n = 2 ^ d - 1 /\ d <> 1 /\ (c_ub G = true \/ d <= 2).
  Definition contract (fuel : nat) (rec : solver_fun) : Prop :=
    forall b ub d n s r s', d < fuel -> mls <= vsize (V b) -> d <= n <= 2 ^ d - 1 -> full d n ->
    SInv s -> rec (V b) b ub d n s = (r, s') -> timely s' -> SInv s' /\ post (V b) d n ub r.

  Lemma full_ne2 d n : full d n -> strong = true -> c_term G = true -> n <> 2.
  Proof.
    intros H Hs Hc. destruct (H Hs Hc) as [-> _]. destruct d as [|[|d]]; cbn [Nat.pow]; lia.
  Qed.

  Section General.
    Context (fuel : nat) (rec : solver_fun) (Hrf : rec_frame fuel rec) (Hrc : contract fuel rec).
    Context (b : branch) (ub0 blb : node) (d n : nat).
    Hypothesis Hd : 1 <= d.
    Hypothesis Hdf : d <= fuel.
    Hypothesis Hn : d <= n <= 2 ^ d - 1.
    Hypothesis Hfull : strong = true -> c_term G = true -> n = 2 ^ d - 1 /\ 3 <= d /\ (c_ub G = true \/ d = 3).
    Hypothesis Hblb : LBs (V b) d n (nd_sol blb).
    Hypothesis Hblb0 : (0 <= nd_sol blb)%Z.
    Notation v := (V b).

    Definition loose : Prop := c_ub G = false /\ c_term G = true.
    Definition beats (S : node) (z : Z) : Prop :=
      if is_empty S then (nd_sol ub0 < z)%Z else (nd_sol S <= z)%Z \/ (loose /\ (nd_sol ub0 < z)%Z).
    Lemma beats_le S S' z : is_empty S' = false -> (is_empty S = false) -> (nd_sol S' <= nd_sol S)%Z -> beats S z -> beats S' z.
    Proof. unfold beats. intros -> -> H [H1|H1]; [left; lia|right; exact H1]. Qed.

    Definition LI (chk : bool) (cov : tree -> Prop) (L : loop) : Prop :=
      SInv (l_st L)
      /\ (l_sols L = init_sol T \/ (wit T G v d (l_sols L) /\ num_nodes (l_sols L) <= n))
      /\ (strong = true ->
          (c_ub G = false -> is_empty (l_sols L) = false /\ (Z.min (nd_sol ub0) (nd_sol (l_sols L)) <= nd_sol (l_ub L))%Z)
          /\ (c_ub G = true -> if is_empty (l_sols L) then nd_sol (l_ub L) = nd_sol ub0
                               else nd_sol (l_ub L) = nd_sol (l_sols L) /\ (nd_sol (l_sols L) <= nd_sol ub0)%Z)
          /\ (forall t, cov t -> alw T G d n v t -> beats (l_sols L) (cost v t))
          /\ (is_empty (l_sols L) = true -> chk = true -> Model_Solver.c_lb G = true -> (nd_sol blb <= nd_sol ub0)%Z)
          /\ (is_empty (l_sols L) = true ->
               (nd_sol (l_inf L) = worst /\ forall t, cov t -> alw T G d n v t -> exists l, t = Leaf l)
               \/ ((forall t, cov t -> alw T G d n v t -> (nd_sol (l_inf L) <= cost v t)%Z) /\ chk = true))).

    Lemma LI_cov chk (cov cov' : tree -> Prop) L : (strong = true -> forall t, cov' t -> alw T G d n v t -> cov t) -> LI chk cov L -> LI chk cov' L.
    Proof.
      intros H (H1 & H2 & H3). split; [exact H1|]. split; [exact H2|]. intro Hs. specialize (H Hs).
      destruct (H3 Hs) as (A1 & A2 & A3 & A4 & A5). repeat (split; [auto|]).
      intro He. destruct (A5 He) as [[B1 B2]|[B1 B2]]; [left|right]; split; auto.
    Qed.

    Lemma LI_st chk cov L s' : LI chk cov L -> SInv s' -> LI chk cov (with_st L s').
    Proof. intros (H1 & H2 & H3) HS. split; [exact HS|]. split; [exact H2|exact H3]. Qed.

      Lemma pow_split : 2 ^ d = 2 * 2 ^ (d - 1) /\ d <= 2 ^ (d - 1).
      Proof.
        replace d with (S (d - 1)) at 1 3 by lia. cbn [Nat.pow]. split; [lia|].
        pose proof (Nat.pow_gt_lin_r 2 (d - 1)). lia.
      Qed.

      Lemma LI_empty_sol chk cov L : LI chk cov L -> is_empty (l_sols L) = true -> nd_sol (l_sols L) = worst.
      Proof.
        intros (_ & [-> | [Hw _]] & _) He; [reflexivity|]. rewrite (wit_nonempty _ _ _ _ _ Hw) in He. discriminate.
      Qed.

      Lemma LI_sol_nonneg chk cov L : LI chk cov L -> (0 <= nd_sol (l_sols L))%Z.
      Proof.
        intros (_ & [-> | [Hw _]] & _).
        - pose proof (cost_nonneg T HT (V b) (Leaf 0)). pose proof (V_lt b (Leaf 0)). cbn [init_sol value_node nd_sol]. lia.
        - apply wit_tree in Hw. destruct Hw as (t & _ & <-). apply cost_nonneg. exact HT.
      Qed.

    (** One feature and one distribution of the nodes. *)
    Section Size.
      Context (f : nat) (sw : bool) (ls : nat).
      Notation rs := (n - ls - 1).
      Notation ld := (Nat.min (d - 1) ls).
      Notation rd := (Nat.min (d - 1) rs).
      Notation lbr := (if sw then br_right b f else br_left b f).
      Notation rbr := (if sw then br_left b f else br_right b f).
      Notation lv := (V lbr).
      Notation rv := (V rbr).
      Hypothesis Hok : ok_feat T G f.
      Hypothesis Hls : min_size d n <= ls <= max_size d n.
      Hypothesis Hlv : mls <= vsize lv.
      Hypothesis Hrv : mls <= vsize rv.

      Definition cls (t : tree) : Prop :=
        exists tl tr, t = Split f tl tr /\ nodes (if sw then tr else tl) <= ls /\ nodes (if sw then tl else tr) <= rs.

      Lemma size_bounds : ls <= 2 ^ (d - 1) - 1 /\ rs <= 2 ^ (d - 1) - 1 /\ ls + rs + 1 = n
        /\ ld <= ls <= 2 ^ ld - 1 /\ rd <= rs <= 2 ^ rd - 1 /\ full ld ls /\ full rd rs.
      Proof.
        pose proof pow_split as [P1 P2]. unfold min_size, max_size in Hls.
        assert (A1 : ls <= 2 ^ (d - 1) - 1) by lia. assert (A2 : rs <= 2 ^ (d - 1) - 1) by lia.
        assert (Hgen : forall k, k <= 2 ^ (d - 1) - 1 -> Nat.min (d - 1) k <= k <= 2 ^ (Nat.min (d - 1) k) - 1).
        { intros k Hk. destruct (Nat.min_dec (d - 1) k) as [E|E]; rewrite E; [lia|].
          pose proof (Nat.pow_gt_lin_r 2 k). lia. }
        assert (Hfl : forall k, (strong = true -> c_term G = true -> k = 2 ^ (d - 1) - 1) -> full (Nat.min (d - 1) k) k).
        { intros k Hk Hs Hc. specialize (Hk Hs Hc). destruct (Hfull Hs Hc) as (_ & Hd3 & Hd4).
          assert (Nat.min (d - 1) k = d - 1) as -> by lia. split; [exact Hk|]. split; [lia|]. destruct Hd4; [auto|right; lia]. }
        repeat (split; [first [exact A1|exact A2|apply Hgen; assumption|lia]|]).
        split; apply Hfl; intros Hs Hc; destruct (Hfull Hs Hc) as (Hn2 & Hd3 & _); lia.
      Qed.

      Lemma sides : (if sw then split_right f v else split_left f v) = lv /\ (if sw then split_left f v else split_right f v) = rv.
      Proof. destruct sw; rewrite V_left, V_right; split; reflexivity. Qed.

      Lemma cls_alw t : cls t -> alw T G d n v t ->
        exists ta tb, alw T G ld ls lv ta /\ alw T G rd rs rv tb /\ cost v t = (cost lv ta + cost rv tb)%Z.
      Proof.
        intros (tl & tr & -> & Ha & Hb) Ht. apply allowed_split in Ht. destruct Ht as (_ & _ & _ & Hl & Hr).
        rewrite tree_cost_split. rewrite V_left, V_right in *.
        assert (Hm : forall w t k, allowed (ok_feat T G) mls (d - 1) (nodes t) w t -> nodes t <= k -> alw T G (Nat.min (d - 1) k) k w t).
        { intros w t k (H1 & H2 & H3 & _) Hk. repeat split; try assumption. pose proof (depth_le_nodes t). lia. }
        destruct sw.
        - exists tr, tl. split; [apply Hm; assumption|]. split; [apply Hm; assumption|]. lia.
        - exists tl, tr. split; [apply Hm; assumption|]. split; [apply Hm; assumption|]. lia.
      Qed.

      Lemma leaf_cost_sides l : cost v (Leaf l) = (cost lv (Leaf l) + cost rv (Leaf l))%Z.
      Proof. rewrite (leaf_split T v f l), V_left, V_right. destruct sw; lia. Qed.

      Definition PLB (z : Z) : Prop :=
        forall ta tb, alw T G ld ls lv ta -> alw T G rd rs rv tb -> (z <= cost lv ta + cost rv tb)%Z.

      Lemma PLB_cls z t : PLB z -> cls t -> alw T G d n v t -> (z <= cost v t)%Z.
      Proof. intros H Hc Ht. destruct (cls_alw t Hc Ht) as (ta & tb & Ha & Hb & ->). auto. Qed.

      Lemma PLB_leaf z l : PLB z -> l < num_labels root -> (z <= cost v (Leaf l))%Z.
      Proof.
        intros H Hl. rewrite leaf_cost_sides. apply H; apply leaf_allowed; try assumption; rewrite V_nl; exact Hl.
      Qed.

      Lemma PLB_max z : PLB z -> PLB (Z.max 0 z).
      Proof.
        intros H ta tb Ha Hb. specialize (H ta tb Ha Hb). pose proof (cost_nonneg T HT lv ta). pose proof (cost_nonneg T HT rv tb). lia.
      Qed.
      Lemma PLB_eq z y : PLB z -> tk_eq T z y = true -> z = y.
      Proof. intro H. apply (lb_eq T HT root Hworst b (Leaf 0)). apply PLB_leaf; [exact H|lia]. Qed.

      Lemma PLB_worst z : PLB z -> (z < worst)%Z.
      Proof. intro H. pose proof (PLB_leaf z 0 H ltac:(lia)). pose proof (V_lt b (Leaf 0)). lia. Qed.

      Lemma PLB_sum a c : LB T G lv ld ls a -> LB T G rv rd rs c -> PLB (a + c).
      Proof. intros Ha Hc ta tb H1 H2. specialize (Ha ta H1). specialize (Hc tb H2). lia. Qed.

      Lemma lr_lb_spec s lb llb rlb : SInv s -> lr_lb T G s f 0 lv lbr ld ls rv rbr rd rs = (lb, llb, rlb) -> strong = true ->
        LB T G lv ld ls (nd_sol llb) /\ LB T G rv rd rs (nd_sol rlb) /\ PLB (nd_sol lb).
      Proof.
        intros HS. pose proof size_bounds as (_ & _ & _ & _ & _ & F1 & F2). unfold lr_lb.
        case (Model_Solver.c_lb G); intro H; injection H as <- <- <-; intro Hs.
        - pose proof (LBt_LBs _ _ _ _ (full_ne2 _ _ F1) (compute_lb_spec s lbr ld ls HS) Hs) as A1.
          pose proof (LBt_LBs _ _ _ _ (full_ne2 _ _ F2) (compute_lb_spec s rbr rd rs HS) Hs) as A2.
          split; [exact A1|]. split; [exact A2|]. rewrite (combine0 T _ _ _ HT). cbn [branch_node nd_sol].
          apply PLB_sum; assumption.
        - split; [apply LB_zero; exact HT|]. split; [apply LB_zero; exact HT|]. cbn [init_lb value_node nd_sol].
          intros ta tb _ _. pose proof (cost_nonneg T HT lv ta). pose proof (cost_nonneg T HT rv tb). lia.
      Qed.

      (** What a failed child call says about the class. *)
      Lemma sub_beats L o x y : strong = true -> c_ub G = true \/ c_term G = true ->
        (c_ub G = false -> is_empty (l_sols L) = false /\ (Z.min (nd_sol ub0) (nd_sol (l_sols L)) <= nd_sol (l_ub L))%Z) ->
        (c_ub G = true -> if is_empty (l_sols L) then nd_sol (l_ub L) = nd_sol ub0 /\ nd_sol (l_sols L) = worst
         else nd_sol (l_ub L) = nd_sol (l_sols L)) ->
        (0 <= nd_sol (l_sols L))%Z ->
        (nd_sol (subtract_ubs T G (l_ub L) o (l_sols L) 0) < x)%Z -> (nd_sol o <= y)%Z -> (x + y < worst)%Z -> (0 <= y)%Z ->
        beats (l_sols L) (x + y).
      Proof.
        intros Hs Hor HF HL Hsl. unfold subtract_ubs, beats, loose. case_eq (c_ub G); intro Hu.
        - specialize (HL Hu). cbn [value_node nd_sol].
          pose proof (gt_md T HT) as Hmd. unfold zsub.
          destruct (is_empty (l_sols L)).
          + destruct HL as [-> ->]. destruct (tk_dom T worst (nd_sol ub0)); intros; lia.
          + rewrite HL. intros Hx Hy _ Hy0. rewrite (gt_dom T HT) in Hx by exact Hsl. left. lia.
        - destruct (HF Hu) as [-> Hm]. cbn [value_node nd_sol]. intros H1 _ _ H2.
          destruct Hor as [Hor|Hor]; [congruence|].
          destruct (Z.min_spec (nd_sol ub0) (nd_sol (l_sols L))) as [[_ Em]|[_ Em]]; rewrite Em in Hm; [right; split; [auto|lia]|left; lia].
      Qed.

      Lemma LI_inf (cov : tree -> Prop) L lb s' : LI true cov L -> SInv s' ->
        (strong = true -> PLB (nd_sol lb) /\ forall t, cls t -> alw T G d n v t -> beats (l_sols L) (cost v t)) ->
        (forall l, cov (Leaf l)) -> LI true (fun t => cov t \/ cls t) (with_inf L lb s').
      Proof.
        intros (H1 & H2 & H3) HS H Hcl. split; [exact HS|]. split; [exact H2|]. intro Hs.
        destruct (H3 Hs) as (A1 & A2 & A3 & A4 & A5). destruct (H Hs) as [Hp Hb].
        cbn [with_inf l_sols l_ub l_inf]. split; [exact A1|]. split; [exact A2|].
        split; [intros t [Hc|Hc] Ht; auto|]. split; [exact A4|].
        intro He. right. split; [|reflexivity].
        destruct (add_sol_cases (l_inf L) lb) as [[-> Hlt]|[-> Hle]].
        - intros t [Hc|Hc] Ht; [|apply PLB_cls; assumption].
          destruct (A5 He) as [[B1 B2]|[B1 _]].
          + destruct (B2 t Hc Ht) as [l ->]. apply PLB_leaf; [exact Hp|]. destruct Ht as [Hf _]. cbn [fits] in Hf.
            change (length v) with (num_labels v) in Hf. rewrite V_nl in Hf. exact Hf.
          + specialize (B1 t Hc Ht). lia.
        - destruct (A5 He) as [[B1 B2]|[B1 _]]; [pose proof (PLB_worst _ Hp); lia|].
          intros t [Hc|Hc] Ht; [auto|]. pose proof (PLB_cls _ t Hp Hc Ht). lia.
      Qed.

      Lemma LI_same (cov : tree -> Prop) L s' : LI true cov L -> SInv s' ->
        (strong = true -> is_empty (l_sols L) = false /\ forall t, cls t -> alw T G d n v t -> (nd_sol (l_sols L) <= cost v t)%Z) ->
        LI true (fun t => cov t \/ cls t) (with_st L s').
      Proof.
        intros (H1 & H2 & H3) HS H. split; [exact HS|]. split; [exact H2|]. intro Hs.
        destruct (H3 Hs) as (A1 & A2 & A3 & A4 & A5). destruct (H Hs) as [He Hb]. cbn [with_st l_sols l_ub l_inf].
        split; [exact A1|]. split; [exact A2|]. split.
        - intros t [Hc|Hc] Ht; [auto|]. unfold beats. rewrite He. left. auto.
        - split; [exact A4|]. rewrite He. discriminate.
      Qed.

      Lemma new_wit lsol rsol : wit T G lv ld lsol -> num_nodes lsol <= ls -> wit T G rv rd rsol -> num_nodes rsol <= rs ->
        let new := if sw then combine_sols T f rsol lsol 0 else combine_sols T f lsol rsol 0 in
        wit T G v d new /\ num_nodes new <= n /\ nd_sol new = (nd_sol lsol + nd_sol rsol)%Z.
      Proof.
        intros Hl Hln Hr Hrn. pose proof size_bounds as (S1 & S2 & S3 & _).
        assert (Hup : forall w k x, wit T G w (Nat.min (d - 1) k) x -> wit T G w (d - 1) x)
          by (intros w k x Hx; eapply wit_mono; [exact Hx|lia]).
        apply Hup in Hl. apply Hup in Hr.
        apply wit_tree_exact in Hl. destruct Hl as (tl & Hl & El & Fl). apply wit_tree_exact in Hr. destruct Hr as (tr & Hr & Er & Fr).
        destruct sw; cbn zeta; rewrite (combine0 T _ _ _ HT).
        - split; [|split; [change (num_nodes rsol + num_nodes lsol + 1 <= n); lia|cbn [branch_node nd_sol]; lia]].
          unfold wit. cbn [branch_node nd_feat nd_l nd_r nd_sol]. rewrite V_left, V_right.
          split; [exact Hok|]. split; [exact Hd|]. split; [lia|]. split; [lia|].
          exists tr, tl. split; [exact Hr|]. split; [exact Hl|]. repeat split; lia.
        - split; [|split; [change (num_nodes lsol + num_nodes rsol + 1 <= n); lia|cbn [branch_node nd_sol]; lia]].
          unfold wit. cbn [branch_node nd_feat nd_l nd_r nd_sol]. rewrite V_left, V_right.
          split; [exact Hok|]. split; [exact Hd|]. split; [lia|]. split; [lia|].
          exists tl, tr. split; [exact Hl|]. split; [exact Hr|]. repeat split; lia.
      Qed.

      Lemma size_step_spec (cov : tree -> Prop) L L' stop :
        LI true cov L -> (forall l, cov (Leaf l)) ->
        size_step T G rec d n f 0 sw lv lbr rv rbr L ls = (L', stop) -> timely (l_st L') ->
        LI true (fun t => cov t \/ cls t) L' /\ (strong = true -> stop = false).
      Proof.
        intros HL Hcl HE Ht. pose proof size_bounds as (S1 & S2 & S3 & S4 & S5 & F1 & F2).
        pose proof HL as (H1 & H2 & H3). unfold size_step in HE.
        destruct (lr_lb T G (l_st L) f 0 lv lbr ld ls rv rbr rd rs) as [[lb llb] rlb] eqn:Elb.
        pose proof (lr_lb_spec (l_st L) lb llb rlb H1 Elb) as Hlb.
        pose proof (LI_sol_nonneg _ _ _ HL) as Hsl0.
        assert (HS0 : strong = true -> c_ub G = true ->
          if is_empty (l_sols L) then nd_sol (l_ub L) = nd_sol ub0 /\ nd_sol (l_sols L) = worst else nd_sol (l_ub L) = nd_sol (l_sols L)).
        { intros Hs Hu. destruct (H3 Hs) as (_ & A2 & _). specialize (A2 Hu). pose proof (LI_empty_sol _ _ _ HL) as He.
          destruct (is_empty (l_sols L)); [auto|tauto]. }
        assert (Hprune : forall z, strong = true -> c_ub G = true -> PLB z -> (nd_sol (l_ub L) < z)%Z ->
          forall t, cls t -> alw T G d n v t -> beats (l_sols L) (cost v t)).
        { intros z Hs Hu Hp Hlt t Hc Hal. pose proof (PLB_cls _ t Hp Hc Hal). specialize (HS0 Hs Hu). unfold beats.
          destruct (is_empty (l_sols L)); [|left]; lia. }
        destruct (c_ub G && tk_sdom T (nd_sol (l_ub L)) (nd_sol lb)) eqn:Eb1.
        { injection HE as <- <-. split; [|reflexivity]. apply LI_inf; try assumption. intro Hs.
          apply andb_true_iff in Eb1. destruct Eb1 as [Hu Hlt]. apply (gt_sdom T HT) in Hlt.
          destruct (Hlb Hs) as (_ & _ & Hp). split; [exact Hp|]. eapply Hprune; [exact Hs|exact Hu|apply PLB_max; exact Hp|exact Hlt]. }
        destruct (tk_eq T (nd_sol lb) (nd_sol (l_sols L))) eqn:Eb2.
        { injection HE as <- <-. split; [|reflexivity].
          replace L with (with_st L (l_st L)) by (destruct L; reflexivity). apply LI_same; [exact HL|exact H1|]. intro Hs.
          destruct (Hlb Hs) as (_ & _ & Hp). apply (PLB_eq _ _ Hp) in Eb2. split.
          - destruct (is_empty (l_sols L)) eqn:He; [|reflexivity]. pose proof (LI_empty_sol _ _ _ HL He). pose proof (PLB_worst _ Hp). lia.
          - intros t Hc Hal. rewrite <- Eb2. apply PLB_cls; assumption. }
        clear Eb1 Eb2.
        pose proof (Hrf lv lbr (subtract_ubs T G (l_ub L) rlb (l_sols L) 0) ld ls (l_st L) ltac:(lia)) as Fr1.
        destruct (rec lv lbr (subtract_ubs T G (l_ub L) rlb (l_sols L) 0) ld ls (l_st L)) as [lsol s1'] eqn:Er1.
        cbn [snd] in Fr1.
        destruct (in_time G s1') as [ok1 s1] eqn:Ei1. pose proof (in_time_spec _ _ _ Ei1) as (Fi1 & Ic1 & Ia1 & Io1).
        assert (Hleft : timely s1 -> SInv s1 /\ post lv ld ls (subtract_ubs T G (l_ub L) rlb (l_sols L) 0) lsol).
        { intro Ht1. pose proof (frame_timely _ _ Fi1 Ht1) as Ht1'.
          destruct (Hrc lbr _ ld ls (l_st L) lsol s1' ltac:(lia) Hlv S4 F1 H1 Er1 Ht1') as [Hs1 Hp1].
          split; [eapply SInv_c; [exact Ic1|exact Ia1|exact Hs1]|exact Hp1]. }
        destruct ok1; cbn [negb] in HE.
        2:{ injection HE as <- <-. cbn [with_st l_st] in Ht. destruct (Hleft Ht) as [HS1 _].
            specialize (Io1 eq_refl Ht). split; [|congruence]. apply LI_cov with (cov := cov); [congruence|]. apply LI_st; assumption. }
        destruct (is_empty lsol) eqn:Ee1.
        { destruct (lr_lb T G s1 f 0 lv lbr ld ls rv rbr rd rs) as [[lb' llb'] rlb'] eqn:Elb'.
          injection HE as <- <-. cbn [with_inf l_st] in Ht. destruct (Hleft Ht) as [HS1 Hp1].
          split; [|reflexivity]. apply LI_inf; try assumption. intro Hs.
          destruct (lr_lb_spec s1 lb' llb' rlb' HS1 Elb' Hs) as (_ & _ & Hp). split; [exact Hp|].
          destruct Hp1 as [[_ Hno]|[Hw _]]; [|rewrite (wit_nonempty _ _ _ _ _ Hw) in Ee1; discriminate].
          destruct (Hno Hs) as [Hu Hall]. intros t Hc Hal. pose proof (V_lt b t) as Hwt.
          destruct (cls_alw t Hc Hal) as (ta & tb & Ha & Hb & Ec). rewrite Ec in *.
          destruct (Hlb Hs) as (_ & Hr & _). apply (sub_beats L rlb); [exact Hs|exact Hu|apply (H3 Hs)|apply HS0; assumption|exact Hsl0|apply Hall; exact Ha|apply Hr; exact Hb|exact Hwt|apply cost_nonneg; exact HT]. }
        assert (Hl2 : timely s1 -> wit T G lv ld lsol /\ num_nodes lsol <= ls /\ LBs lv ld ls (nd_sol lsol)).
        { intro Ht1. destruct (Hleft Ht1) as [_ [[-> _]|Hw]]; [discriminate|exact Hw]. }
        pose proof (Hrf rv rbr (subtract_ubs T G (l_ub L) lsol (l_sols L) 0) rd rs s1 ltac:(lia)) as Fr2.
        destruct (rec rv rbr (subtract_ubs T G (l_ub L) lsol (l_sols L) 0) rd rs s1) as [rsol s2'] eqn:Er2.
        cbn [snd] in Fr2.
        destruct (in_time G s2') as [ok2 s2] eqn:Ei2. pose proof (in_time_spec _ _ _ Ei2) as (Fi2 & Ic2 & Ia2 & Io2).
        assert (Hright : timely s2 -> timely s1 /\ SInv s2 /\ post rv rd rs (subtract_ubs T G (l_ub L) lsol (l_sols L) 0) rsol).
        { intro Ht2. pose proof (frame_timely _ _ Fi2 Ht2) as Ht2'. pose proof (frame_timely _ _ Fr2 Ht2') as Ht1.
          destruct (Hleft Ht1) as [HS1 _].
          destruct (Hrc rbr _ rd rs s1 rsol s2' ltac:(lia) Hrv S5 F2 HS1 Er2 Ht2') as [Hs2 Hp2].
          split; [exact Ht1|]. split; [eapply SInv_c; [exact Ic2|exact Ia2|exact Hs2]|exact Hp2]. }
        destruct ok2; cbn [negb] in HE.
        2:{ injection HE as <- <-. cbn [with_st l_st] in Ht. destruct (Hright Ht) as (_ & HS2 & _).
            specialize (Io2 eq_refl Ht). split; [|congruence]. apply LI_cov with (cov := cov); [congruence|]. apply LI_st; assumption. }
        destruct (is_empty rsol) eqn:Ee2.
        { destruct (lr_lb T G s2 f 0 lv lbr ld ls rv rbr rd rs) as [[lb' llb'] rlb'] eqn:Elb'.
          injection HE as <- <-. cbn [with_inf l_st] in Ht. destruct (Hright Ht) as (Ht1 & HS2 & Hp2).
          split; [|reflexivity]. apply LI_inf; try assumption. intro Hs.
          destruct (lr_lb_spec s2 lb' llb' rlb' HS2 Elb' Hs) as (_ & _ & Hp). split; [exact Hp|].
          destruct Hp2 as [[_ Hno]|[Hw _]]; [|rewrite (wit_nonempty _ _ _ _ _ Hw) in Ee2; discriminate].
          destruct (Hno Hs) as [Hu Hall]. intros t Hc Hal. pose proof (V_lt b t) as Hwt.
          destruct (cls_alw t Hc Hal) as (ta & tb & Ha & Hb & Ec). rewrite Ec in *. rewrite Z.add_comm. rewrite Z.add_comm in Hwt.
          destruct (Hl2 Ht1) as (_ & _ & Hl). specialize (Hl Hs). apply (sub_beats L lsol); [exact Hs|exact Hu|apply (H3 Hs)|apply HS0; assumption|exact Hsl0|apply Hall; exact Hb|apply Hl; exact Ha|exact Hwt|apply cost_nonneg; exact HT]. }
        set (new := if sw then combine_sols T f rsol lsol 0 else combine_sols T f lsol rsol 0) in *.
        assert (Hfin : timely s2 -> SInv s2 /\ wit T G v d new /\ num_nodes new <= n /\ (strong = true -> PLB (nd_sol new))).
        { intro Ht2. destruct (Hright Ht2) as (Ht1 & HS2 & Hp2). destruct (Hl2 Ht1) as (W1 & W2 & W3).
          destruct Hp2 as [[-> _]|(W4 & W5 & W6)]; [discriminate|].
          destruct (new_wit lsol rsol W1 W2 W4 W5) as (N1 & N2 & N3). fold new in N1, N2, N3.
          repeat (split; [assumption|]). intro Hs. rewrite N3. apply PLB_sum; auto. }
        destruct (c_ub G && tk_sdom T (nd_sol (l_ub L)) (nd_sol new)) eqn:Eb3.
        { injection HE as <- <-. cbn [with_inf l_st] in Ht. destruct (Hfin Ht) as (HS2 & _ & _ & Hp).
          split; [|reflexivity]. apply LI_inf; try assumption. intro Hs. specialize (Hp Hs). split; [exact Hp|].
          apply andb_true_iff in Eb3. destruct Eb3 as [Hu Hlt]. apply (gt_sdom T HT) in Hlt.
          eapply Hprune; [exact Hs|exact Hu|apply PLB_max; exact Hp|exact Hlt]. }
        injection HE as <- <-. cbn [l_st] in Ht. destruct (Hfin Ht) as (HS2 & Hw & Hnn & Hp). split; [|reflexivity].
        pose proof (wit_lt_worst T G HT root Hworst b d new Hw) as Hnw.
        pose proof (wit_nonempty _ _ _ _ _ Hw) as Hne.
        unfold LI. cbn [l_st l_sols l_ub l_inf]. split; [exact HS2|].
        rewrite (wit_sdom T G HT root Hworst b d new _ Hw) in Eb3. rewrite (wit_sdom_l T G HT root Hworst b d new _ Hw Hsl0).
        destruct (nd_sol new <? nd_sol (l_sols L))%Z eqn:Elt.
        - apply Z.ltb_lt in Elt. split; [right; auto|]. intro Hs. rewrite Hne. destruct (H3 Hs) as (A1 & A2 & A3 & A4 & A5).
          split; [intro Hu; split; [reflexivity|]; destruct (A1 Hu) as [_ A1']; unfold upd_ub; rewrite Hu; clear -A1' Elt; lia|]. split; [|split; [|split; discriminate]].
          + intro Hu. rewrite Hu in Eb3. cbn [andb] in Eb3. apply Z.ltb_ge in Eb3. specialize (A2 Hu). specialize (HS0 Hs Hu).
            unfold upd_ub. rewrite Hu. destruct (add_sol_cases (l_ub L) new) as [[-> ?]|[-> ?]];
              destruct (is_empty (l_sols L)); cbv iota in *; lia.
          + intros t [Hc|Hc] Hal; [|unfold beats; rewrite Hne; left; apply PLB_cls; auto].
            specialize (A3 t Hc Hal). destruct (is_empty (l_sols L)) eqn:He; [|apply (beats_le (l_sols L)); [exact Hne|exact He|lia|exact A3]].
            unfold beats in *. rewrite Hne. rewrite He in A3. left.
            destruct (c_ub G) eqn:Hu; [|destruct (A1 eq_refl); discriminate].
            specialize (A2 eq_refl). cbn [andb] in Eb3. apply Z.ltb_ge in Eb3. lia.
        - apply Z.ltb_ge in Elt. split; [exact H2|]. intro Hs. destruct (H3 Hs) as (A1 & A2 & A3 & A4 & A5).
          destruct (is_empty (l_sols L)) eqn:He; [pose proof (LI_empty_sol _ _ _ HL He); lia|].
          split; [intro Hu; destruct (A1 Hu) as [_ A1']; split; [reflexivity|]; unfold upd_ub; rewrite Hu; exact A1'|]. split; [|split; [|split; discriminate]].
          + intro Hu. specialize (A2 Hu). unfold upd_ub. rewrite Hu.
            destruct (add_sol_cases (l_ub L) new) as [[-> ?]|[-> ?]]; lia.
          + intros t [Hc|Hc] Hal; unfold beats; rewrite He.
            * specialize (A3 t Hc Hal). unfold beats in A3. rewrite He in A3. exact A3.
            * left. pose proof (PLB_cls _ t (Hp Hs) Hc Hal). lia.
      Qed.
    End Size.

    Lemma size_loop_spec f (sw : bool) :
      ok_feat T G f -> mls <= vsize (V (if sw then br_right b f else br_left b f)) ->
      mls <= vsize (V (if sw then br_left b f else br_right b f)) ->
      forall sizes (cov : tree -> Prop) L,
      (forall k, In k sizes -> min_size d n <= k <= max_size d n) ->
      LI true cov L -> (forall l, cov (Leaf l)) ->
      let L' := size_loop (size_step T G rec d n f 0 sw (V (if sw then br_right b f else br_left b f)) (if sw then br_right b f else br_left b f)
                                  (V (if sw then br_left b f else br_right b f)) (if sw then br_left b f else br_right b f)) L sizes in
      timely (l_st L') -> LI true (fun t => cov t \/ exists k, In k sizes /\ cls f sw k t) L'.
    Proof.
      intros Hok Hlv Hrv. induction sizes as [|k sizes IH]; intros cov L Hk HL Hcl; cbn [size_loop]; cbn zeta; intro Ht.
      - apply LI_cov with (cov := cov); [|exact HL]. intros _ t [H|(k & Hin & _)] _; [exact H|destruct Hin].
      - pose proof (size_step_spec f sw k Hok (Hk k (or_introl eq_refl)) Hlv Hrv cov L) as Hstep.
        destruct (size_step T G rec d n f 0 sw _ _ _ _ L k) as [L' stop] eqn:Es.
        specialize (Hstep L' stop HL Hcl eq_refl).
        destruct stop.
        + destruct (Hstep Ht) as [HL' Hst]. apply LI_cov with (cov := fun t => cov t \/ cls f sw k t); [|exact HL'].
          intro Hs. discriminate (Hst Hs).
        + assert (Ht' : timely (l_st L')).
          { eapply frame_timely; [|exact Ht]. apply size_loop_frame. intros L0 k0. apply size_step_frame with (fuel := fuel); assumption. }
          destruct (Hstep Ht') as [HL' _].
          assert (Hk' : forall k, In k sizes -> min_size d n <= k <= max_size d n) by (intros; apply Hk; right; assumption).
          pose proof (IH (fun t => cov t \/ cls f sw k t) L' Hk' HL' (fun l => or_introl (Hcl l)) Ht) as IH'. eapply LI_cov; [|exact IH'].
          intros _ t [H|(k0 & [<-|Hin] & H)] _; [left; left; exact H|left; right; exact H|right; eauto].
    Qed.

    Lemma size_choice na nb : na + nb + 1 <= n -> na <= 2 ^ (d - 1) - 1 -> nb <= 2 ^ (d - 1) - 1 ->
      exists k, In k (seq (min_size d n) (S (max_size d n) - min_size d n)) /\ na <= k /\ nb <= n - k - 1.
    Proof.
      intros H1 H2 H3. pose proof pow_split as [P1 P2]. exists (Nat.max na (min_size d n)).
      rewrite in_seq. unfold min_size, max_size. lia.
    Qed.

    Lemma skip_alw f tl tr : br_has b f || negb (tk_may T f) || c_redundant G f = true -> ~ alw T G d n v (Split f tl tr).
    Proof.
      intros H Ht. apply allowed_split in Ht. destruct Ht as ([_ Hmay] & _ & _ & Hl & Hr).
      apply allowed_size in Hl. apply allowed_size in Hr.
      apply orb_true_iff in H. destruct H as [H|H]; [apply orb_true_iff in H; destruct H as [H|H]|].
      - destruct (V_blind b f H); lia.
      - rewrite Hmay in H. discriminate.
      - assert (Hz : vsize (split_right f v) = 0); [|lia]. rewrite V_right. unfold vsize.
        destruct (concat (V (br_right b f))) as [|x l] eqn:Ex; [reflexivity|]. exfalso.
        assert (Hin : In x (concat (V (br_right b f)))) by (rewrite Ex; left; reflexivity).
        rewrite <- V_right, concat_split_right in Hin. apply filter_In in Hin. destruct Hin as [Hin Hx].
        apply in_restrict in Hin. destruct Hin as [Hin _].
        rewrite (Hred f x H Hin) in Hx. discriminate.
    Qed.

    Lemma feature_step_spec f (cov : tree -> Prop) L L' : f < nf ->
      LI true cov L -> (forall l, cov (Leaf l)) -> feature_step T G rec v b d n f L = Some L' -> timely (l_st L') ->
      LI true (fun t => cov t \/ exists tl tr, t = Split f tl tr) L'.
    Proof.
      intros Hf HL Hcl. unfold feature_step.
      destruct (br_has b f || negb (tk_may T f) || c_redundant G f) eqn:Esk.
      { intro H. injection H as <-. intros _. eapply LI_cov; [|exact HL]. intros _ t [H|(tl & tr & ->)] Ht; [exact H|].
        exfalso. eapply skip_alw; eassumption. }
      rewrite (gt_sparse T HT). cbn [andb].
      assert (Hbc : get_bc T v b f = 0%Z) by (unfold get_bc; apply (gt_bc T HT)). rewrite Hbc.
      assert (Hok : ok_feat T G f).
      { split; [exact Hf|]. destruct (tk_may T f); [reflexivity|]. cbn [negb] in Esk. rewrite orb_true_r in Esk. discriminate. }
      unfold sat_mls. rewrite !Nat.mul_1_r. rewrite V_left, V_right.
      destruct (mls <=? vsize (V (br_left b f))) eqn:E1; cbn [negb orb].
      2:{ intro H. injection H as <-. intros _. eapply LI_cov; [|exact HL]. intros _ t [H|(tl & tr & ->)] Ht; [exact H|].
          exfalso. apply allowed_split in Ht. destruct Ht as (_ & _ & _ & Hl & _). apply allowed_size in Hl. rewrite V_left in Hl.
          apply Nat.leb_gt in E1. lia. }
      destruct (mls <=? vsize (V (br_right b f))) eqn:E2; cbn [negb orb].
      2:{ intro H. injection H as <-. intros _. eapply LI_cov; [|exact HL]. intros _ t [H|(tl & tr & ->)] Ht; [exact H|].
          exfalso. apply allowed_split in Ht. destruct Ht as (_ & _ & _ & _ & Hr). apply allowed_size in Hr. rewrite V_right in Hr.
          apply Nat.leb_gt in E2. lia. }
      apply Nat.leb_le in E1. apply Nat.leb_le in E2.
      assert (Hsizes : forall k, In k (seq (min_size d n) (S (max_size d n) - min_size d n)) -> min_size d n <= k <= max_size d n).
      { intros k Hk. apply in_seq in Hk. lia. }
      destruct (vsize (V (br_left b f)) <? vsize (V (br_right b f))); intro H; injection H as <-; intro Ht.
      - pose proof (size_loop_spec f true Hok E2 E1 _ cov L Hsizes HL Hcl Ht) as HL'. eapply LI_cov; [|exact HL'].
        intros _ t [H|(tl & tr & ->)] Hal; [left; exact H|]. right. 
        apply allowed_split in Hal. destruct Hal as (_ & _ & Hnn & Hl & Hr).
        destruct (size_choice (nodes tr) (nodes tl)) as (k & K1 & K2 & K3); [lia| | |].
        + destruct Hr as (_ & _ & Hdr & _). exact (nodes_le_full tr (d - 1) Hdr).
        + destruct Hl as (_ & _ & Hdl & _). exact (nodes_le_full tl (d - 1) Hdl).
        + exists k. split; [exact K1|]. exists tl, tr. auto.
      - pose proof (size_loop_spec f false Hok E1 E2 _ cov L Hsizes HL Hcl Ht) as HL'. eapply LI_cov; [|exact HL'].
        intros _ t [H|(tl & tr & ->)] Hal; [left; exact H|]. right. 
        apply allowed_split in Hal. destruct Hal as (_ & _ & Hnn & Hl & Hr).
        destruct (size_choice (nodes tl) (nodes tr)) as (k & K1 & K2 & K3); [lia| | |].
        + destruct Hl as (_ & _ & Hdl & _). exact (nodes_le_full tl (d - 1) Hdl).
        + destruct Hr as (_ & _ & Hdr & _). exact (nodes_le_full tr (d - 1) Hdr).
        + exists k. split; [exact K1|]. exists tl, tr. auto.
    Qed.

    (** The state after the loop over the features. *)
    Definition FI (L : loop) : Prop :=
      SInv (l_st L)
      /\ (l_sols L = init_sol T \/ (wit T G v d (l_sols L) /\ num_nodes (l_sols L) <= n))
      /\ (strong = true ->
          (c_ub G = false -> is_empty (l_sols L) = false)
          /\ (forall t, alw T G d n v t -> beats (l_sols L) (cost v t))
          /\ (is_empty (l_sols L) = true -> nd_sol (l_inf L) = worst
               \/ forall t, alw T G d n v t -> (nd_sol (l_inf L) <= cost v t)%Z)).

    Lemma feature_loop_spec fs : forall chk (cov : tree -> Prop) L,
      (forall f, In f fs -> f < nf) ->
      (strong = true -> forall t, alw T G d n v t -> cov t \/ exists f tl tr, In f fs /\ t = Split f tl tr) ->
      mls <= vsize v ->
      LI chk cov L -> (forall l, cov (Leaf l)) ->
      timely (l_st (feature_loop T G rec v b d n blb L fs)) -> FI (feature_loop T G rec v b d n blb L fs).
    Proof.
      induction fs as [|f fs IH]; intros chk cov L Hfs Hcov Hsz HL Hcl; cbn [feature_loop].
      - intros _. destruct HL as (H1 & H2 & H3). split; [exact H1|]. split; [exact H2|]. intro Hs.
        destruct (H3 Hs) as (A1 & A2 & A3 & A4 & A5).
        assert (Hc : forall t, alw T G d n v t -> cov t) by (intros t Ht; destruct (Hcov Hs t Ht) as [H|(? & ? & ? & [] & _)]; exact H).
        split; [apply A1|]. split; [auto|]. intro He. destruct (A5 He) as [[B1 _]|[B1 _]]; auto.
      - destruct (in_time G (l_st L)) as [ok s] eqn:Ei. pose proof (in_time_spec _ _ _ Ei) as (Fi & Ic & Ia & Io).
        assert (HS : SInv s) by (eapply SInv_c; [exact Ic|exact Ia|apply HL]).
        pose proof (LI_st _ _ _ s HL HS) as HL1. clear HL.
        destruct ok; cbn [negb].
        2:{ intro Ht. cbn [with_st l_st] in Ht. specialize (Io eq_refl Ht). destruct HL1 as (H1 & H2 & _).
            split; [exact H1|]. split; [exact H2|]. congruence. }
        set (L1 := with_st L s) in *.
        destruct (Model_Solver.c_lb G && tk_eq T (nd_sol blb) (nd_sol (l_sols L1))) eqn:Eb1.
        { intros _. apply andb_true_iff in Eb1. destruct Eb1 as [_ Eb1].
          pose proof (LI_empty_sol chk cov L1 HL1) as Hes.
          destruct HL1 as (H1 & H2 & H3). split; [exact H1|]. split; [exact H2|]. intro Hs. specialize (Hblb Hs).
          apply (lb_eq T HT root Hworst b (Leaf 0)) in Eb1; [|apply Hblb; apply leaf_allowed; [rewrite V_nl; lia|exact Hsz]].
          destruct (H3 Hs) as (A1 & _).
          assert (He : is_empty (l_sols L1) = false).
          { destruct (is_empty (l_sols L1)) eqn:He; [|reflexivity]. specialize (Hes eq_refl).
            pose proof (Hblb (Leaf 0) ltac:(apply leaf_allowed; [rewrite V_nl; lia|exact Hsz])). pose proof (V_lt b (Leaf 0)). lia. }
          split; [apply A1|]. split; [|rewrite He; discriminate].
          intros t Ht. unfold beats. rewrite He, <- Eb1. left. apply Hblb. exact Ht. }
        destruct (Model_Solver.c_lb G && c_ub G && tk_sdom T (nd_sol (l_ub L1)) (nd_sol blb)) eqn:Eb2.
        { intros _. apply andb_true_iff in Eb2. destruct Eb2 as [Eb2 Hlt]. apply andb_true_iff in Eb2. destruct Eb2 as [Hclb Hu].
          apply (gt_sdom T HT) in Hlt. destruct HL1 as (H1 & H2 & H3). split; [exact H1|]. split; [exact H2|]. intro Hs. specialize (Hblb Hs).
          destruct (H3 Hs) as (A1 & A2 & A3 & A4 & A5). specialize (A2 Hu). split; [apply A1|]. split.
          - intros t Ht. specialize (Hblb t Ht). pose proof (cost_nonneg T HT v t). unfold beats. destruct (is_empty (l_sols L1)); [|left]; lia.
          - intro He. rewrite He in A2. destruct (A5 He) as [[B1 _]|[_ B1]]; [left; exact B1|].
            specialize (A4 He B1 Hclb). lia. }
        assert (HL2 : LI true cov L1).
        { destruct HL1 as (H1 & H2 & H3). split; [exact H1|]. split; [exact H2|]. intro Hs.
          destruct (H3 Hs) as (A1 & A2 & A3 & A4 & A5). repeat (split; [assumption|]). split.
          - intros He _ Hclb. assert (Hu : c_ub G = true) by (destruct (c_ub G) in *; [reflexivity|destruct (A1 eq_refl); congruence]).
            rewrite Hclb, Hu in Eb2. cbn [andb] in Eb2.
            assert (Hx : ~ (nd_sol (l_ub L1) < nd_sol blb)%Z).
            { intro Hx. pose proof (Hblb Hs (Leaf 0) ltac:(apply leaf_allowed; [rewrite V_nl; lia|exact Hsz])).
              rewrite (proj1 (cost_tells T HT root Hworst b (Leaf 0))) in Eb2; [discriminate|lia|exact Hx]. }
            specialize (A2 Hu). rewrite He in A2. lia.
          - intro He. destruct (A5 He) as [B|[B _]]; auto. }
        destruct (feature_step T G rec v b d n f L1) as [L2|] eqn:Ef.
        + intro Ht. pose proof (feature_loop_frame fuel rec v b d n blb fs Hrf Hdf Hd L2) as Fr.
          pose proof (frame_timely _ _ Fr Ht) as Ht2.
          pose proof (feature_step_spec f cov L1 L2 (Hfs f (or_introl eq_refl)) HL2 Hcl Ef Ht2) as HL3.
          refine (IH true _ L2 (fun g Hg => Hfs g (or_intror Hg)) _ Hsz HL3 (fun l => or_introl (Hcl l)) Ht).
          intros Hs t Hal. destruct (Hcov Hs t Hal) as [H|(g & tl & tr & [<-|Hg] & ->)]; [left; left; exact H|left; right; eauto|right; eauto 6].
        + exfalso. unfold feature_step in Ef. rewrite (gt_sparse T HT) in Ef. cbn [andb] in Ef.
          repeat match type of Ef with (if ?c then _ else _) = None => destruct c; try discriminate Ef end.
    Qed.
  End General.

  Lemma lower_cached_spec c v b n : forall k ld ln, lower_cached c v b n k = Some (ld, ln) ->
    1 <= ld <= k /\ ln <= n /\ c_is_optimal c v b ld ln = true.
  Proof.
    induction k as [|k IH]; intros ld ln; cbn [lower_cached]; [discriminate|].
    destruct (c_is_optimal c v b (S k) (Nat.min n (2 ^ k))) eqn:Eo.
    - intro H. injection H as <- <-. repeat split; try lia. exact Eo.
    - intro H. apply IH in H. destruct H as (H1 & H2 & H3). repeat split; try lia. exact H3.
  Qed.

  (** What the loop over the features leaves, also for a call of depth three without upper bounds. *)
  Lemma general_loop fuel rec b ub0 d n s sols0 u0 sols1 u1 :
    rec_frame fuel rec -> contract fuel rec -> 1 <= d <= fuel -> d <= n <= 2 ^ d - 1 ->
    (strong = true -> c_term G = true -> n = 2 ^ d - 1 /\ 3 <= d /\ (c_ub G = true \/ d = 3)) ->
    mls <= vsize (V b) -> SInv s ->
    solve_leaf T G (V b) ub0 = (sols0, u0) ->
    match lower_cached (s_c s) (V b) b n (d - 1) with
    | Some (ld, ln) =>
      let cached := c_retrieve T (s_c s) (V b) b ld ln in
      if c_ub G && tk_sdom T (nd_sol u0) (nd_sol cached) then (sols0, u0)
      else (add_sol sols0 cached, add_sol u0 cached)
    | None => (sols0, u0)
    end = (sols1, u1) ->
    let L := feature_loop T G rec (V b) b d n (compute_lb T G s (V b) b d n) (Loop u1 sols1 (init_sol T) s) (c_order G (V b)) in
    timely (l_st L) -> FI b ub0 d n L.
  Proof.
    intros Hrf Hrc [Hd Hdf] Hn Hfu Hsz HS Hle EX.
    pose proof (solve_leaf_spec T G HT root Hworst b ub0 Hsz) as Hleaf. rewrite Hle in Hleaf. clear Hle. cbv zeta in EX.
    set (blb := compute_lb T G s (V b) b d n).
    set (L0 := Loop u1 sols1 (init_sol T) s).
    assert (Hblb : LBs (V b) d n (nd_sol blb)).
    { apply LBt_LBs; [|apply compute_lb_spec; exact HS].
      intros Hs Hc. destruct (Hfu Hs Hc) as (-> & Hd3 & _). destruct d as [|[|d]]; cbn [Nat.pow]; lia. }
    assert (Hblb0 : (0 <= nd_sol blb)%Z).
    { unfold blb, compute_lb, add_sol_inv. rewrite (gt_lb T HT), (gt_sparse T HT). destruct (Model_Solver.c_lb G); [|cbn; lia].
      destruct (nd_sol init_lb <? nd_sol (Model_Cache.c_lb (s_c s) (V b) b d n))%Z eqn:E1; [apply Z.ltb_lt in E1|];
        destruct (_ <? nd_sol init_lb)%Z eqn:E2; cbn [init_lb value_node nd_sol] in *; try apply Z.ltb_ge in E2; lia. }
    assert (H0 : LI b ub0 blb d n false (fun t => exists l, t = Leaf l) (Loop u0 sols0 (init_sol T) s)).
    { unfold LI. cbn [l_st l_sols l_ub l_inf]. split; [exact HS|].
      destruct Hleaf as [(l & Hl & Hf & Hmin & Hu1 & Hu2)|(Hf & Hu & Hno)]; cbn [fst snd] in *.
      - subst sols0. split; [right; split; [apply wit_leaf; assumption|unfold num_nodes; cbn [leaf_node nd_feat]; lia]|].
        intros _. unfold is_empty. cbn [leaf_node nd_feat nd_lab]. split; [intro Hu; split; [reflexivity|rewrite (Hu2 Hu); cbn [nd_sol leaf_node]; lia]|]. split; [exact Hu1|].
        split; [|split; discriminate].
        intros t [l' ->] Ht. unfold beats, is_empty. cbn [leaf_node nd_feat nd_lab nd_sol]. left. apply Hmin. apply Ht.
      - subst sols0 u0. split; [left; reflexivity|]. intros _. unfold is_empty at 1 2. cbn [init_sol value_node nd_feat nd_lab].
        destruct (Hno 0 ltac:(rewrite V_nl; lia)) as [Hu _]. split; [congruence|]. split; [reflexivity|]. split; [|split].
        + intros t [l' ->] Ht. unfold beats, is_empty. cbn [init_sol value_node nd_feat nd_lab]. apply Hno. apply Ht.
        + discriminate.
        + intros _. left. split; [reflexivity|auto]. }
    assert (H1 : LI b ub0 blb d n false (fun t => exists l, t = Leaf l) L0).
    { unfold L0. destruct (lower_cached (s_c s) (V b) b n (d - 1)) as [[ld ln]|] eqn:El.
      2:{ injection EX as <- <-. exact H0. }
      apply lower_cached_spec in El. destruct El as (El1 & El2 & El3).
      apply (is_optimal_retrieve T) in El3. destruct HS as [HI HA].
      destruct (cached_spec (s_c s) b ld ln HI) as [Hc|(_ & Hw & Hnn & _)]; [rewrite Hc in El3; discriminate|].
      set (cd := c_retrieve T (s_c s) (V b) b ld ln) in *.
      rewrite (wit_sdom T G HT root Hworst b ld cd _ Hw) in EX.
      destruct (c_ub G && (nd_sol u0 <? nd_sol cd)%Z) eqn:Eu; injection EX as <- <-; [exact H0|].
      destruct H0 as (A1 & A2 & A3). cbn [l_st l_sols l_ub l_inf] in *. unfold LI. cbn [l_st l_sols l_ub l_inf]. split; [exact A1|].
      assert (Hwd : wit T G (V b) d cd) by (eapply wit_mono; [exact Hw|lia]).
      pose proof (wit_lt_worst T G HT root Hworst b d cd Hwd) as Hcw.
      assert (Hs0 : is_empty sols0 = true -> nd_sol sols0 = worst).
      { intro He. destruct A2 as [->|[Hx _]]; [reflexivity|]. rewrite (wit_nonempty _ _ _ _ _ Hx) in He. discriminate. }
      split.
      - destruct (add_sol_cases sols0 cd) as [[-> _]|[-> _]]; [right; split; [exact Hwd|lia]|exact A2].
      - intro Hs. destruct (A3 Hs) as (B1 & B2 & B3 & B4 & B5).
        destruct (add_sol_cases sols0 cd) as [[-> Hlt]|[-> Hle]].
        + rewrite El3. split; [intro Hu; split; [reflexivity|]; destruct (B1 Hu) as [_ B1']; destruct (add_sol_cases u0 cd) as [[-> ?]|[-> ?]]; lia|]. split; [|split; [|split; discriminate]].
          * intro Hu. rewrite Hu in Eu. cbn [andb] in Eu. apply Z.ltb_ge in Eu. specialize (B2 Hu).
            destruct (add_sol_cases u0 cd) as [[-> ?]|[-> ?]]; destruct (is_empty sols0); lia.
          * intros t Ht Hal. specialize (B3 t Ht Hal). unfold beats in *. rewrite El3. destruct (is_empty sols0) eqn:He; [|destruct B3; [left; lia|right; assumption]].
            destruct (c_ub G) eqn:Hu; [|destruct (B1 eq_refl); discriminate].
            specialize (B2 eq_refl). cbn [andb] in Eu. apply Z.ltb_ge in Eu. left. lia.
        + destruct (is_empty sols0) eqn:He; [specialize (Hs0 eq_refl); lia|].
          split; [intro Hu; destruct (B1 Hu) as [_ B1']; split; [reflexivity|]; destruct (add_sol_cases u0 cd) as [[-> ?]|[-> ?]]; lia|].
          split; [|split; [exact B3|split; discriminate]].
          intro Hu. specialize (B2 Hu). destruct (add_sol_cases u0 cd) as [[-> ?]|[-> ?]]; lia. }
    clear H0. set (L := feature_loop T G rec (V b) b d n blb L0 (c_order G (V b))). intros L' Ht. subst L'.
    apply (feature_loop_spec fuel rec Hrf Hrc b ub0 blb d n Hd Hdf Hn Hfu Hblb Hblb0
               (c_order G (V b)) false (fun t => exists l, t = Leaf l) L0); try assumption.
    - intros f Hf. apply (Horder (V b)). exact Hf.
    - intros _ t Hal. destruct t as [l|f tl tr]; [left; eauto|]. right. exists f, tl, tr. split; [|reflexivity].
      apply Horder. destruct Hal as (Hfit & _). apply Hfit.
    - eauto.
  Qed.

  Lemma general_spec fuel rec b ub0 d n s r s' :
    rec_frame fuel rec -> contract fuel rec -> 1 <= d <= fuel -> d <= n <= 2 ^ d - 1 -> full d n ->
    (c_term G = true -> 3 <= d) -> mls <= vsize (V b) -> SInv s ->
    general_case T G rec (V b) b ub0 d n s = (r, s') -> timely s' -> SInv s' /\ post (V b) d n ub0 r.
  Proof.
    intros Hrf Hrc [Hd Hdf] Hn Hfu Hd3 Hsz HS. unfold general_case.
    pose proof (fun Hall => leaf_post b d n ub0 Hsz Hall) as Hlp.
    destruct (solve_leaf T G (V b) ub0) as [sols0 u0] eqn:Esl. cbn [fst] in Hlp.
    unfold sat_mls. destruct (mls * 2 <=? vsize (V b)) eqn:E2; cbn [negb].
    2:{ intro H. injection H as <- <-. intros _. split; [exact HS|]. apply Hlp. intros t Ht.
        apply Nat.leb_gt in E2. eapply small_leaf; [|exact Ht]. lia. }
    clear Hlp E2.
    match goal with |- context [let '(a, c) := ?x in _] => set (X := x) end.
    destruct X as [sols1 u1] eqn:EX. subst X.
    set (blb := compute_lb T G s (V b) b d n).
    set (L0 := Loop u1 sols1 (init_sol T) s).
    set (L := feature_loop T G rec (V b) b d n blb L0 (c_order G (V b))).
    intro H. injection H as <- <-. intro Ht.
    assert (Ht' : timely (l_st L)).
    { eapply frame_timely; [|exact Ht]. eapply frame_trans; [apply set_c_frame|apply archive_frame]. }
    assert (HF : FI b ub0 d n L).
    { refine (general_loop fuel rec b ub0 d n s sols0 u0 sols1 u1 Hrf Hrc (conj Hd Hdf) Hn _ Hsz HS Esl EX Ht').
      intros Hs Hc. destruct (Hfu Hs Hc) as (X1 & _ & X2). specialize (Hd3 Hc). split; [exact X1|]. split; [exact Hd3|]. destruct X2; [auto|lia]. }
    assert (Hnlo : strong = true -> ~ loose).
    { intros Hs [X1 X2]. destruct (Hfu Hs X2) as (_ & _ & [X|X]); [congruence|specialize (Hd3 X2); lia]. }
    destruct HF as (G1 & G2 & G3).
    assert (Hc : Inv N root E (if negb (is_empty (l_sols L)) then c_store (s_c (l_st L)) (V b) b (l_sols L) d n
              else c_upd_lb T (s_c (l_st L)) (V b) b (if tk_eq T (nd_sol (l_inf L)) worst then ub0 else add_sol_inv (l_inf L) ub0) d n)).
    { destruct (is_empty (l_sols L)) eqn:He; cbn [negb].
      - apply Inv_upd; [apply G1|]. apply LBs_LBt. intro Hs. destruct (G3 Hs) as (_ & B2 & B3).
        assert (Hub : LB T G (V b) d n (nd_sol ub0)).
        { intros t Hal. specialize (B2 t Hal). unfold beats in B2. rewrite He in B2. lia. }
        destruct (tk_eq T (nd_sol (l_inf L)) worst) eqn:Ew; [exact Hub|].
        destruct (B3 eq_refl) as [Hx|Hx].
        { rewrite Hx, (gt_eq T HT) in Ew; [discriminate|]. pose proof (cost_nonneg T HT (V b) (Leaf 0)). pose proof (V_lt b (Leaf 0)). lia. }
        destruct (add_sol_inv_either (l_inf L) ub0) as [->| ->]; [exact Hx|exact Hub].
      - destruct G2 as [Hx|[Hw Hnn]]; [rewrite Hx in He; discriminate|]. apply Inv_put; [apply G1|exact Hw|exact Hnn|].
        intros db nb Hnb Hdb. apply LBt_mono with (d := d) (n := n); [|lia|lia]. apply LBs_LBt. intros Hs t Hal.
        destruct (G3 Hs) as (_ & B2 & _). specialize (B2 t Hal). unfold beats in B2. rewrite He in B2. destruct B2 as [B2|[B2 _]]; [exact B2|destruct (Hnlo Hs B2)]. }
    destruct (archive_spec (set_c (l_st L) _) b d (set_c_SInv _ _ G1 Hc) Hsz) as [_ HS'].
    split; [exact HS'|]. unfold post. destruct G2 as [Hx|[Hw Hnn]].
    - left. split; [exact Hx|]. intro Hs. destruct (G3 Hs) as (B1 & B2 & _). unfold beats in B2. rewrite Hx in B1, B2.
      cbn in B1, B2. split; [|exact B2]. left. destruct (c_ub G); [reflexivity|specialize (B1 eq_refl); discriminate].
    - right. split; [exact Hw|]. split; [exact Hnn|]. intros Hs t Hal. destruct (G3 Hs) as (_ & B2 & _).
      specialize (B2 t Hal). unfold beats in B2. rewrite (wit_nonempty _ _ _ _ _ Hw) in B2.
      destruct B2 as [B2|[B2 _]]; [exact B2|destruct (Hnlo Hs B2)].
  Qed.

  Theorem solve_sub_contract fuel : contract fuel (solve_sub T G fuel).
  Proof.
    induction fuel as [|fuel IH]; intros b ub d n s r s' Hdf Hsz Hn Hfu HS; [lia|]. cbn [solve_sub].
    destruct (in_time G s) as [ok s1] eqn:Ei. pose proof (in_time_spec _ _ _ Ei) as (Fi & Ic & Ia & Io).
    assert (HS1 : SInv s1) by (eapply SInv_c; [exact Ic|exact Ia|exact HS]).
    destruct ok; cbn [negb].
    2:{ intro H. injection H as <- <-. intro Ht. specialize (Io eq_refl Ht). split; [exact HS1|]. left. split; [reflexivity|congruence]. }
    unfold reduce_budget. rewrite (gt_sparse T HT).
    destruct ((d =? 0) || (n =? 0)) eqn:E0.
    { intro H. injection H as <- <-. intros _. split; [exact HS1|]. apply leaf_post; [exact Hsz|]. intros t Ht.
      eapply zero_leaf; [|exact Ht]. apply orb_true_iff in E0. destruct E0 as [E0|E0]; apply Nat.eqb_eq in E0; auto. }
    apply orb_false_iff in E0. destruct E0 as [E0 E0']. apply Nat.eqb_neq in E0. apply Nat.eqb_neq in E0'.
    assert (Hcached : forall s0, SInv s0 -> is_empty (c_retrieve T (s_c s0) (V b) b d n) = false ->
      post (V b) d n ub (c_retrieve T (s_c s0) (V b) b d n)).
    { intros s0 [HI _] He. destruct (cached_spec (s_c s0) b d n HI) as [Hx|(_ & W1 & W2 & W3)]; [rewrite Hx in He; discriminate|].
      right. split; [exact W1|]. split; [exact W2|]. apply LBt_LBs; [apply full_ne2 with (d := d); exact Hfu|exact W3]. }
    destruct (is_empty (c_retrieve T (s_c s1) (V b) b d n)) eqn:Ec; cbn [negb].
    2:{ intro H. injection H as <- <-. intros _. split; [exact HS1|]. apply Hcached; assumption. }
    assert (Hcont : forall s2, SInv s2 ->
      (if c_term G && (d <=? 2) then solve_terminal T G (V b) b ub d n s2
       else general_case T G (solve_sub T G fuel) (V b) b ub d n s2) = (r, s') -> timely s' -> SInv s' /\ post (V b) d n ub r).
    { intros s2 HS2. destruct (c_term G && (d <=? 2)) eqn:Et.
      - apply andb_true_iff in Et. destruct Et as [Ect Ed]. apply Nat.leb_le in Ed. intros H _.
        assert (Hn3 : strong = true -> n = 3).
        { intro Hs. destruct (Hfu Hs Ect) as (-> & Hd1 & _). assert (d = 2) as -> by lia. reflexivity. }
        destruct (terminal_spec b ub d n s2 r s' Hsz HS2 ltac:(lia) Hn Ect Hn3 H) as (_ & A1 & A2). auto.
      - intros H Ht. refine (general_spec fuel (solve_sub T G fuel) b ub d n s2 r s' (solve_sub_frame fuel) IH ltac:(lia) Hn Hfu _ Hsz HS2 H Ht).
        intro Hct. rewrite Hct in Et. cbn [andb] in Et. apply Nat.leb_gt in Et. lia. }
    case_eq (Model_Solver.c_lb G); intro Eclb; [|apply Hcont; exact HS1].
    destruct (update_sim T G s1 (V b) b d n) as [upd s2] eqn:Eu. apply update_sim_spec in Eu; [|exact HS1]. destruct Eu as [_ HS2].
    destruct (upd && negb (is_empty (c_retrieve T (s_c s2) (V b) b d n))) eqn:Eu2.
    { intro H. injection H as <- <-. intros _. split; [exact HS2|]. apply Hcached; [exact HS2|].
      apply andb_true_iff in Eu2. destruct Eu2 as [_ Eu2]. apply negb_true_iff. exact Eu2. }
    set (lb := compute_lb T G s2 (V b) b d n).
    assert (Hlb : LBs (V b) d n (nd_sol lb)).
    { apply LBt_LBs; [apply full_ne2 with (d := d); exact Hfu|]. apply compute_lb_spec. exact HS2. }
    destruct (c_ub G && tk_sdom T (nd_sol ub) (nd_sol lb)) eqn:Eb.
    { intro H. injection H as <- <-. intros _. split; [exact HS2|]. left. split; [reflexivity|]. intro Hs.
      apply andb_true_iff in Eb. destruct Eb as [Hu Hlt]. apply (gt_sdom T HT) in Hlt. split; [left; exact Hu|]. intros t Ht.
      specialize (Hlb Hs t Ht). pose proof (cost_nonneg T HT (V b) t). lia. }
    destruct (tk_eq T (nd_sol lb) (nd_sol (fst (solve_leaf T G (V b) (init_sol T))))) eqn:El; [|apply Hcont; exact HS2].
    intro H. injection H as <- <-. intros _. split; [exact HS2|].
    assert (El' : strong = true -> nd_sol lb = nd_sol (fst (solve_leaf T G (V b) (init_sol T)))).
    { intro Hs. apply (lb_eq T HT root Hworst b (Leaf 0)); [|exact El]. apply (Hlb Hs). apply leaf_allowed; [rewrite V_nl; lia|exact Hsz]. }
    destruct (solve_leaf_spec T G HT root Hworst b (init_sol T) Hsz) as [(l & Hl & Hf & _)|(_ & _ & Hno)].
    - rewrite Hf in *. right. split; [apply wit_leaf; assumption|]. split; [unfold num_nodes; cbn [leaf_node nd_feat]; lia|].
      intro Hs. rewrite <- (El' Hs). exact (Hlb Hs).
    - destruct (Hno 0 ltac:(rewrite V_nl; lia)) as [_ Hx]. pose proof (V_lt b (Leaf 0)). cbn [init_sol value_node nd_sol] in Hx. lia.
  Qed.

  (** The same for a call of depth three with seven nodes, with the depth-two solver and without
      upper bounds: every tree is matched or lies above the bound. *)
  Lemma solve_sub_three fuel b ub s r s' :
    strong = true -> c_ub G = false -> c_term G = true -> 4 <= fuel -> mls <= vsize (V b) -> SInv s ->
    solve_sub T G fuel (V b) b ub 3 7 s = (r, s') -> timely s' ->
    forall t, alw T G 3 7 (V b) t -> if is_empty r then (nd_sol ub < cost (V b) t)%Z
      else (nd_sol r <= cost (V b) t \/ nd_sol ub < cost (V b) t)%Z.
  Proof.
    intros Hs Hub Hct Hf Hsz HS. destruct fuel as [|fuel]; [lia|]. cbn [solve_sub].
    destruct (in_time G s) as [ok s1] eqn:Ei. pose proof (in_time_spec _ _ _ Ei) as (Fi & Ic & Ia & Io).
    assert (HS1 : SInv s1) by (eapply SInv_c; [exact Ic|exact Ia|exact HS]).
    destruct ok; cbn [negb].
    2:{ intro H. injection H as <- <-. intro Ht. specialize (Io eq_refl Ht). congruence. }
    unfold reduce_budget. rewrite (gt_sparse T HT). cbn [Nat.eqb orb].
    assert (N2 : strong = true -> c_term G = true -> 7 <> 2) by lia.
    assert (Hcached : forall s0, SInv s0 -> is_empty (c_retrieve T (s_c s0) (V b) b 3 7) = false ->
      forall t, alw T G 3 7 (V b) t -> (nd_sol (c_retrieve T (s_c s0) (V b) b 3 7) <= cost (V b) t)%Z).
    { intros s0 [HI _] He. destruct (cached_spec (s_c s0) b 3 7 HI) as [Hx|(_ & W1 & W2 & W3)]; [rewrite Hx in He; discriminate|].
      exact (LBt_LBs _ _ _ _ N2 W3 Hs). }
    destruct (is_empty (c_retrieve T (s_c s1) (V b) b 3 7)) eqn:Ec; cbn [negb].
    2:{ intro H. injection H as <- <-. intros _ t Hal. rewrite Ec. left. apply Hcached; assumption. }
    assert (Hcont : forall s2, SInv s2 -> general_case T G (solve_sub T G fuel) (V b) b ub 3 7 s2 = (r, s') -> timely s' ->
      forall t, alw T G 3 7 (V b) t -> if is_empty r then (nd_sol ub < cost (V b) t)%Z
        else (nd_sol r <= cost (V b) t \/ nd_sol ub < cost (V b) t)%Z).
    { intros s2 HS2. unfold general_case. pose proof (fun Hall => leaf_post b 3 7 ub Hsz Hall) as Hlp.
      destruct (solve_leaf T G (V b) ub) as [sols0 u0] eqn:Esl. cbn [fst] in Hlp.
      unfold sat_mls. destruct (mls * 2 <=? vsize (V b)) eqn:E2; cbn [negb].
      2:{ intro H. injection H as <- <-. intros _. apply Nat.leb_gt in E2.
          destruct Hlp as [(-> & Hno)|(Hw & _ & Hmin)]; [intros t0 Ht0; eapply small_leaf; [|exact Ht0]; lia| |].
          - intros t Ht. cbn [init_sol value_node is_empty nd_feat nd_lab]. apply (Hno Hs). exact Ht.
          - intros t Ht. rewrite (wit_nonempty _ _ _ _ _ Hw). left. apply (Hmin Hs). exact Ht. }
      clear Hlp E2.
      match goal with |- context [let '(a, c) := ?x in _] => set (X := x) end.
      destruct X as [sols1 u1] eqn:EX. subst X.
      set (L := feature_loop _ _ _ _ _ _ _ _ _ _).
      intro H. injection H as <- <-. intro Ht.
      assert (Ht' : timely (l_st L)).
      { eapply frame_timely; [|exact Ht]. eapply frame_trans; [apply set_c_frame|apply archive_frame]. }
      destruct (general_loop fuel (solve_sub T G fuel) b ub 3 7 s2 sols0 u0 sols1 u1 (solve_sub_frame fuel)
        (solve_sub_contract fuel) ltac:(lia) ltac:(cbn; lia)) as (_ & _ & G3); try assumption.
      - intros _ _. cbn. lia.
      - intros t Hal. destruct (G3 Hs) as (_ & B2 & _). specialize (B2 t Hal). unfold beats in B2.
        fold L in B2. destruct (is_empty (l_sols L)); [exact B2|]. destruct B2 as [B2|[_ B2]]; [left|right]; exact B2. }
    assert (Et : c_term G && (3 <=? 2) = false) by (rewrite Hct; reflexivity). rewrite Et.
    case_eq (Model_Solver.c_lb G); intro Eclb; [|apply Hcont; exact HS1].
    destruct (update_sim T G s1 (V b) b 3 7) as [upd s2] eqn:Eu. apply update_sim_spec in Eu; [|exact HS1]. destruct Eu as [_ HS2].
    destruct (upd && negb (is_empty (c_retrieve T (s_c s2) (V b) b 3 7))) eqn:Eu2.
    { intro H. injection H as <- <-. intros _ t Hal. apply andb_true_iff in Eu2. destruct Eu2 as [_ Eu2]. apply negb_true_iff in Eu2.
      rewrite Eu2. left. apply Hcached; assumption. }
    set (lb := compute_lb T G s2 (V b) b 3 7).
    assert (Hlb : LBs (V b) 3 7 (nd_sol lb)) by (apply LBt_LBs; [exact N2|apply compute_lb_spec; exact HS2]).
    rewrite Hub. cbn [andb].
    destruct (tk_eq T (nd_sol lb) (nd_sol (fst (solve_leaf T G (V b) (init_sol T))))) eqn:El; [|apply Hcont; exact HS2].
    intro H. injection H as <- <-. intros _ t Hal.
    apply (lb_eq T HT root Hworst b (Leaf 0)) in El; [|apply (Hlb Hs); apply leaf_allowed; [rewrite V_nl; lia|exact Hsz]].
    destruct (solve_leaf_spec T G HT root Hworst b (init_sol T) Hsz) as [(l & Hl & Hf' & _)|(_ & _ & Hno)].
    - rewrite Hf' in *. cbn [leaf_node is_empty nd_feat nd_lab] in *. left. rewrite <- El. apply (Hlb Hs). exact Hal.
    - destruct (Hno 0 ltac:(rewrite V_nl; lia)) as [Hx _]. congruence.
  Qed.
End Search.
