(** Invariants of the caches, for any predicate on entries. *)
From Coq Require Import List Arith Bool Lia ZArith.
From Verif Require Import Model_FeatureVector Model_Data Model_Node Model_Cache Spec_Tree Proofs_View.
Import ListNotations.
Local Open Scope nat_scope.

Section Assoc.
  Context {K : Type} (eqb : K -> K -> bool) (Heq : forall a b, eqb a b = true <-> a = b).

  Lemma alookup_aset k es m k' : alookup eqb k' (aset eqb k es m) = if eqb k' k then Some es else alookup eqb k' m.
  Proof.
    induction m as [|[k0 es0] m IH]; cbn [aset alookup].
    - reflexivity.
    - destruct (eqb k k0) eqn:E; cbn [alookup].
      + apply Heq in E. subst k0. destruct (eqb k' k); reflexivity.
      + rewrite IH. destruct (eqb k' k0) eqn:E2; [|reflexivity].
        destruct (eqb k' k) eqn:E3; [|reflexivity]. apply Heq in E2, E3. subst. rewrite (proj2 (Heq k0 k0) eq_refl) in E. discriminate.
  Qed.

  Lemma aget_aset k es m k' : aget eqb k' (aset eqb k es m) = if eqb k' k then es else aget eqb k' m.
  Proof. unfold aget. rewrite alookup_aset. destruct (eqb k' k); reflexivity. Qed.
End Assoc.

(** ** One entry vector *)
Section Entries.
  Context (T : task) (P : entry -> Prop).

  Lemma in_budgets od sn d n db nb : In (db, nb) (budgets od sn d n) <-> sn <= nb <= n /\ od <= db <= Nat.min d nb.
  Proof.
    unfold budgets. rewrite in_flat_map. split.
    - intros (k & Hk & Hin). apply in_map_iff in Hin. destruct Hin as (j & Hj & Hjin). injection Hj as -> ->.
      apply in_seq in Hk, Hjin. lia.
    - intros [H1 H2]. exists nb. split; [apply in_seq; lia|]. apply in_map_iff. exists db. split; [reflexivity|]. apply in_seq. lia.
  Qed.

  Lemma in_range_spec od sn d n e : in_range od sn d n e = true <-> sn <= e_n e <= n /\ od <= e_d e <= d.
  Proof. unfold in_range. rewrite !andb_true_iff, !Nat.leb_le. lia. Qed.

  Lemma e_is_spec d n e : e_is d n e = true <-> e_n e = n /\ e_d e = d.
  Proof. unfold e_is. rewrite andb_true_iff, !Nat.eqb_eq. reflexivity. Qed.

  Lemma e_set_opt_eq e sol : is_empty sol = false -> e_set_opt e sol = Entry sol sol (e_d e) (e_n e).
  Proof. intro H. unfold e_set_opt. rewrite H. reflexivity. Qed.

  Lemma es_store_all es sol od sn d n :
    is_empty sol = false -> Forall P es ->
    (forall db nb, sn <= nb <= n -> od <= db <= d -> P (Entry sol sol db nb)) ->
    Forall P (es_store es sol od sn d n).
  Proof.
    intros Hs Hes Hnew. unfold es_store. apply Forall_app. split.
    - apply Forall_forall. intros x Hx. apply in_map_iff in Hx. destruct Hx as (e & <- & He).
      destruct (in_range od sn d n e && negb (e_is_opt e)) eqn:Er; [|eapply Forall_forall in Hes; eauto].
      apply andb_true_iff in Er. destruct Er as [Er _]. apply in_range_spec in Er.
      rewrite e_set_opt_eq by exact Hs. apply Hnew; lia.
    - apply Forall_forall. intros x Hx. apply in_map_iff in Hx. destruct Hx as ([db nb] & <- & Hb).
      apply filter_In in Hb. destruct Hb as [Hb _]. apply in_budgets in Hb. unfold opt_entry. cbn [fst snd]. apply Hnew; lia.
  Qed.

  Lemma es_upd_lb_all guard es lb d n :
    Forall P es -> P (e_upd_lb (new_entry T d n) lb) ->
    (forall e, P e -> e_d e = d -> e_n e = n -> P (e_upd_lb e lb)) ->
    Forall P (es_upd_lb T guard es lb d n).
  Proof.
    intros Hes Hnew Hupd. induction es as [|e es IH]; cbn [es_upd_lb]; [repeat constructor; exact Hnew|].
    inversion Hes; subst. destruct (e_is d n e) eqn:Ei.
    - apply e_is_spec in Ei. constructor; [|assumption]. destruct (guard && e_is_opt e); [assumption|]. apply Hupd; tauto.
    - constructor; [assumption|apply IH; assumption].
  Qed.

  Lemma es_retrieve_find es d n :
    es_retrieve T es d n = init_sol T
    \/ exists e, In e es /\ e_d e = d /\ e_n e = n /\ e_is_opt e = true /\ es_retrieve T es d n = e_opt e.
  Proof.
    unfold es_retrieve. destruct (find _ es) as [e|] eqn:Ef; [|left; reflexivity].
    right. apply find_some in Ef. destruct Ef as [Hin H]. apply andb_true_iff in H. destruct H as [H1 H2].
    apply e_is_spec in H1. exists e. tauto.
  Qed.

  Lemma es_retrieve_some es e d n : In e es -> e_d e = d -> e_n e = n -> e_is_opt e = true ->
    is_empty (es_retrieve T es d n) = false.
  Proof.
    intros Hin Hd Hn Ho. unfold es_retrieve. destruct (find _ es) as [e'|] eqn:Ef.
    - apply find_some in Ef. destruct Ef as [_ H]. apply andb_true_iff in H. destruct H as [_ H]. unfold e_is_opt in H.
      apply negb_true_iff in H. exact H.
    - pose proof (find_none _ _ Ef e Hin) as H. cbn beta in H. rewrite Ho, andb_true_r in H.
      assert (e_is d n e = true) by (apply e_is_spec; auto). congruence.
  Qed.

  Lemma es_is_optimal_retrieve es d n : es_is_optimal es d n = true -> is_empty (es_retrieve T es d n) = false.
  Proof.
    unfold es_is_optimal. destruct (find (e_is d n) es) as [e|] eqn:Ef; [|discriminate]. intro Ho.
    apply find_some in Ef. destruct Ef as [Hin Hi]. apply e_is_spec in Hi. eapply es_retrieve_some; eauto; tauto.
  Qed.

  Lemma add_sol_inv_either a b : add_sol_inv a b = a \/ add_sol_inv a b = b.
  Proof. unfold add_sol_inv. destruct (_ <? _)%Z; auto. Qed.

  Lemma es_lb_find es d n :
    es_lb es d n = init_lb
    \/ exists e, In e es /\ d <= e_d e /\ n <= e_n e /\ es_lb es d n = e_lb e.
  Proof.
    unfold es_lb.
    assert (H : forall l best, (forall e, In e l -> In e es) ->
      (best = init_lb \/ exists e, In e es /\ d <= e_d e /\ n <= e_n e /\ best = e_lb e) ->
      let r := fold_left (fun best e => if (n <=? e_n e) && (d <=? e_d e) && negb (is_empty (e_lb e))
                 then (if is_empty best then e_lb e else add_sol_inv best (e_lb e)) else best) l best in
      r = init_lb \/ exists e, In e es /\ d <= e_d e /\ n <= e_n e /\ r = e_lb e).
    { induction l as [|e l IH]; intros best Hin Hb; cbn [fold_left]; [exact Hb|]. apply IH; [intros; apply Hin; right; assumption|].
      destruct ((n <=? e_n e) && (d <=? e_d e) && negb (is_empty (e_lb e))) eqn:Ec; [|exact Hb].
      rewrite !andb_true_iff, !Nat.leb_le in Ec.
      assert (He : exists e', In e' es /\ d <= e_d e' /\ n <= e_n e' /\ e_lb e = e_lb e').
      { exists e. split; [apply Hin; left; reflexivity|]. tauto. }
      destruct (is_empty best); [right; exact He|].
      destruct (add_sol_inv_either best (e_lb e)) as [->| ->]; [exact Hb|right; exact He]. }
    apply H; auto.
  Qed.

  Lemma transfer_one_all src dst : P src -> Forall P dst -> Forall P (snd (transfer_one T src dst)).
  Proof.
    intros Hs. induction dst as [|e r IH]; intro Hd; cbn [transfer_one]; [constructor|]. inversion Hd; subst.
    destruct (e_is (e_d src) (e_n src) e).
    - destruct (_ || _); cbn [snd]; [constructor; assumption|].
      destruct (transfer_one T src r) as [a r'] eqn:Et. cbn [snd] in *. constructor; [assumption|apply IH; assumption].
    - destruct (transfer_one T src r) as [a r'] eqn:Et. cbn [snd] in *. constructor; [assumption|apply IH; assumption].
  Qed.

  Lemma transfer_all src dst : Forall P src -> Forall P dst -> Forall P (fold_left (transfer_step T) src dst).
  Proof.
    intro Hs. revert dst. induction src as [|e src IH]; intros dst Hd; cbn [fold_left]; [exact Hd|].
    inversion Hs; subst. apply IH; [assumption|]. unfold transfer_step.
    pose proof (transfer_one_all e dst ltac:(assumption) Hd) as H. destruct (transfer_one T e dst) as [a d']. cbn [snd] in H.
    destruct a; [|exact H]. apply Forall_app. split; [exact H|repeat constructor; assumption].
  Qed.
End Entries.

(** ** The two caches *)
Section Caches.
  Context (T : task) (N : nat) (root : view) (E : view -> entry -> Prop).
  Hypothesis Hids : ids_ok N root.
  Notation V b := (restrict b root).

  Definition Inv (c : caches) : Prop :=
    cc_n c = N /\ (forall b, Forall (E (V b)) (bc_get c b)) /\ (forall b, Forall (E (V b)) (dc_get c (V b))).

  Lemma bc_get_set c b es b' : bc_get (bc_set c b es) b' = if br_eqb b' b then es else bc_get c b'.
  Proof. unfold bc_get, bc_set. cbn [cc_branch]. apply aget_aset. apply br_eqb_eq. Qed.
  Lemma dc_get_set c v es v' : dc_get (dc_set c v es) v' = if bits_eqb (dkey (cc_n c) v') (dkey (cc_n c) v) then es else dc_get c v'.
  Proof. unfold dc_get, dc_set. cbn [cc_data cc_n]. apply aget_aset. apply bits_eqb_eq. Qed.

  Lemma Inv_bc_set c b es : Inv c -> Forall (E (V b)) es -> Inv (bc_set c b es).
  Proof.
    intros (H1 & H2 & H3) Hes. split; [exact H1|]. split; [|exact H3]. intro b'. rewrite bc_get_set.
    destruct (br_eqb b' b) eqn:Eb; [|apply H2]. apply br_eqb_eq in Eb. subst b'. exact Hes.
  Qed.

  Lemma Inv_dc_set c b es : Inv c -> Forall (E (V b)) es -> Inv (dc_set c (V b) es).
  Proof.
    intros (H1 & H2 & H3) Hes. split; [exact H1|]. split; [exact H2|]. intro b'. rewrite dc_get_set, H1.
    destruct (bits_eqb _ _) eqn:Eb; [|apply H3]. apply bits_eqb_eq in Eb.
    rewrite (dkey_restrict_eq N root b' b Hids Eb). exact Hes.
  Qed.

  Lemma Inv_store c b sol d n :
    Inv c -> is_empty sol = false ->
    (forall db nb, num_nodes sol <= nb <= n -> Nat.min d (num_nodes sol) <= db <= d -> E (V b) (Entry sol sol db nb)) ->
    Inv (c_store c (V b) b sol d n).
  Proof.
    intros HI Hs Hnew. unfold c_store. destruct (le_lt_dec (num_nodes sol) n) as [Hle|Hgt].
    - assert (H1 : Inv (if cc_use_branch c then bc_set c b (es_store (bc_get c b) sol (Nat.min d n) (num_nodes sol) d n) else c)).
      { destruct (cc_use_branch c); [|exact HI]. apply Inv_bc_set; [exact HI|]. apply es_store_all; [exact Hs|apply HI|].
        intros db nb Hnb Hdb. apply Hnew; lia. }
      destruct (cc_use_data _); [|exact H1]. apply Inv_dc_set; [exact H1|].
      apply es_store_all; [exact Hs| |exact Hnew]. destruct (cc_use_branch c); apply HI.
    - assert (H1 : Inv (if cc_use_branch c then bc_set c b (es_store (bc_get c b) sol (Nat.min d n) (num_nodes sol) d n) else c)).
      { destruct (cc_use_branch c); [|exact HI]. apply Inv_bc_set; [exact HI|]. apply es_store_all; [exact Hs|apply HI|].
        intros db nb Hnb Hdb. lia. }
      destruct (cc_use_data _); [|exact H1]. apply Inv_dc_set; [exact H1|].
      apply es_store_all; [exact Hs| |exact Hnew]. destruct (cc_use_branch c); apply HI.
  Qed.

  Lemma Inv_upd_lb c b lb d n :
    Inv c -> E (V b) (e_upd_lb (new_entry T d n) lb) ->
    (forall e, E (V b) e -> e_d e = d -> e_n e = n -> E (V b) (e_upd_lb e lb)) ->
    Inv (c_upd_lb T c (V b) b lb d n).
  Proof.
    intros HI Hnew Hupd. unfold c_upd_lb. destruct (cc_use_lb c); [|exact HI].
    assert (H1 : Inv (if cc_use_branch c then bc_set c b (es_upd_lb T true (bc_get c b) lb d n) else c)).
    { destruct (cc_use_branch c); [|exact HI]. apply Inv_bc_set; [exact HI|]. apply es_upd_lb_all; [apply HI|exact Hnew|exact Hupd]. }
    destruct (cc_use_data _); [|exact H1]. apply Inv_dc_set; [exact H1|]. apply es_upd_lb_all; [|exact Hnew|exact Hupd].
    destruct (cc_use_branch c); apply HI.
  Qed.

  Lemma Inv_transfer c bs bd : Inv c -> V bs = V bd -> Inv (c_transfer T c bs bd).
  Proof.
    intros HI Hv. unfold c_transfer. destruct (_ || _ || _); [exact HI|].
    pose proof HI as (_ & Hb & _).
    destruct (alookup br_eqb bs (cc_branch c)) as [src|] eqn:Es; [|exact HI].
    assert (Hsrc : Forall (E (V bd)) src).
    { rewrite <- Hv. specialize (Hb bs). unfold bc_get, aget in Hb. rewrite Es in Hb. exact Hb. }
    destruct (alookup br_eqb bd (cc_branch c)) as [dst|] eqn:Ed.
    - destruct (_ =? _); [|exact HI]. apply Inv_bc_set; [exact HI|]. apply transfer_all; [exact Hsrc|].
      specialize (Hb bd). unfold bc_get, aget in Hb. rewrite Ed in Hb. exact Hb.
    - apply Inv_bc_set; [exact HI|exact Hsrc].
  Qed.

  (** What is read from the caches satisfies the predicate. *)
  Lemma retrieve_entry c b d n :
    Inv c ->
    c_retrieve T c (V b) b d n = init_sol T
    \/ (is_empty (c_retrieve T c (V b) b d n) = false
        /\ exists e, E (V b) e /\ e_d e = d /\ e_n e = n /\ e_is_opt e = true /\ c_retrieve T c (V b) b d n = e_opt e).
  Proof.
    intros (_ & Hb & Hd). unfold c_retrieve.
    assert (Hes : forall es, Forall (E (V b)) es ->
      es_retrieve T es d n = init_sol T \/
      exists e, E (V b) e /\ e_d e = d /\ e_n e = n /\ e_is_opt e = true /\ es_retrieve T es d n = e_opt e).
    { intros es H. destruct (es_retrieve_find T (fun _ => True) es d n) as [H1|(e & Hin & H1 & H2 & H3 & H4)]; [left; exact H1|right].
      exists e. rewrite Forall_forall in H. auto. }
    set (rb := if cc_use_branch c then _ else _).
    assert (Hrb : rb = init_sol T \/ exists e, E (V b) e /\ e_d e = d /\ e_n e = n /\ e_is_opt e = true /\ rb = e_opt e).
    { unfold rb. destruct (cc_use_branch c); [apply Hes, Hb|left; reflexivity]. }
    set (rd := if cc_use_data c then _ else _).
    assert (Hrd : rd = init_sol T \/ exists e, E (V b) e /\ e_d e = d /\ e_n e = n /\ e_is_opt e = true /\ rd = e_opt e).
    { unfold rd. destruct (cc_use_data c); [apply Hes, Hd|left; reflexivity]. }
    clearbody rb rd. cbn zeta.
    destruct (is_empty rb) eqn:E1.
    - destruct (is_empty rd) eqn:E2; [left; reflexivity|].
      destruct Hrd as [->|H]; [discriminate|]. right. auto.
    - destruct Hrb as [->|H]; [discriminate|]. right. auto.
  Qed.

  Lemma is_optimal_retrieve c v b d n : c_is_optimal c v b d n = true -> is_empty (c_retrieve T c v b d n) = false.
  Proof.
    unfold c_is_optimal, c_retrieve. intro H. apply orb_true_iff in H.
    destruct H as [H|H]; apply andb_true_iff in H; destruct H as [Hu Ho]; apply (es_is_optimal_retrieve T (fun _ => True)) in Ho; rewrite Hu.
    - rewrite Ho. exact Ho.
    - destruct (is_empty (if cc_use_branch c then es_retrieve T (bc_get c b) d n else init_sol T)) eqn:Eb; [|exact Eb].
      cbn zeta. rewrite Ho. exact Ho.
  Qed.

  Lemma lb_entry c b d n :
    Inv c ->
    Model_Cache.c_lb c (V b) b d n = init_lb
    \/ exists e, E (V b) e /\ d <= e_d e /\ n <= e_n e /\ Model_Cache.c_lb c (V b) b d n = e_lb e.
  Proof.
    intros (_ & Hb & Hd). unfold Model_Cache.c_lb. destruct (cc_use_lb c); [|left; reflexivity].
    assert (Hes : forall es, Forall (E (V b)) es ->
      es_lb es d n = init_lb \/ exists e, E (V b) e /\ d <= e_d e /\ n <= e_n e /\ es_lb es d n = e_lb e).
    { intros es H. destruct (es_lb_find (fun _ => True) es d n) as [H1|(e & Hin & H1 & H2 & H3)]; [left; exact H1|right].
      exists e. rewrite Forall_forall in H. auto. }
    set (rb := if cc_use_branch c then _ else _).
    assert (Hrb : rb = init_lb \/ exists e, E (V b) e /\ d <= e_d e /\ n <= e_n e /\ rb = e_lb e).
    { unfold rb. destruct (cc_use_branch c); [apply Hes, Hb|left; reflexivity]. }
    set (rd := if cc_use_data c then _ else _).
    assert (Hrd : rd = init_lb \/ exists e, E (V b) e /\ d <= e_d e /\ n <= e_n e /\ rd = e_lb e).
    { unfold rd. destruct (cc_use_data c); [apply Hes, Hd|left; reflexivity]. }
    clearbody rb rd. cbn zeta.
    destruct (is_empty rb) eqn:E1; [|exact Hrb]. destruct (is_empty rd) eqn:E2; [left; reflexivity|exact Hrd].
  Qed.

  Lemma Inv_empty ub ud ul : Inv (Caches ub ud ul N [] []).
  Proof. split; [reflexivity|]. split; intro b; constructor. Qed.
End Caches.
