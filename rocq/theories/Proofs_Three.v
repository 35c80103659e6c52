(** Reconstruction at depth three with the depth-two solver, for any use of the caches: the
    rebuilt tree attains the value found by the search. *)
From Coq Require Import List Arith Bool Lia ZArith.
From Verif Require Import Model_FeatureVector Model_Data Model_Node Model_Cache Model_Terminal Model_Solver
  Spec_Tree Proofs_View Proofs_Diff Proofs_Feature Proofs_Calc Proofs_Base Proofs_Terminal Proofs_TermState Proofs_Cache
  Proofs_Search Proofs_NonEmpty Proofs_RecCalc Proofs_RecTree Proofs_Keep Proofs_Construct Proofs_Outer.
Import ListNotations.
Local Open Scope nat_scope.

(** ** Entry vectors *)
Section Vectors.
  Context (T : task).

  Lemma retrieve_ne es d n : is_empty (es_retrieve T es d n) = false <-> exists e, In e es /\ e_d e = d /\ e_n e = n /\ e_is_opt e = true.
  Proof.
    split.
    - intro H. destruct (es_retrieve_find T (fun _ => True) es d n) as [E|(e & A1 & A2 & A3 & A4 & _)]; [rewrite E in H; discriminate|eauto].
    - intros (e & A1 & A2 & A3 & A4). eapply (es_retrieve_some T); eassumption.
  Qed.
  Lemma retrieve_self es d n : (if is_empty (es_retrieve T es d n) then init_sol T else es_retrieve T es d n) = es_retrieve T es d n.
  Proof.
    destruct (es_retrieve_find T (fun _ => True) es d n) as [E|(e & A1 & A2 & A3 & A4 & A5)]; [rewrite E; reflexivity|].
    assert (is_empty (es_retrieve T es d n) = false) as -> by (apply retrieve_ne; eauto). reflexivity.
  Qed.

  Definition st_set (od sn d n : nat) (sol : node) (e : entry) : entry :=
    if in_range od sn d n e && negb (e_is_opt e) then e_set_opt e sol else e.
  Lemma st_set_is od sn d n sol d' n' e : e_is d' n' (st_set od sn d n sol e) = e_is d' n' e.
  Proof. unfold st_set. destruct (_ && _); reflexivity. Qed.
  Lemma st_set_opt od sn d n sol e : e_is_opt e = true -> st_set od sn d n sol e = e.
  Proof. intro H. unfold st_set. rewrite H, andb_false_r. reflexivity. Qed.
  Lemma find_map_is (f : entry -> entry) d n es : (forall e, e_is d n (f e) = e_is d n e) ->
    find (e_is d n) (map f es) = option_map f (find (e_is d n) es).
  Proof.
    intro Hf. induction es as [|e es IH]; [reflexivity|]. cbn [map find]. rewrite Hf. destruct (e_is d n e); [reflexivity|exact IH].
  Qed.
  Lemma find_app {A} (p : A -> bool) xs ys : find p (xs ++ ys) = match find p xs with Some x => Some x | None => find p ys end.
  Proof. induction xs as [|x xs IH]; [reflexivity|]. cbn [app find]. destruct (p x); [reflexivity|exact IH]. Qed.
  Lemma find_store es sol od sn d n d' n' :
    find (e_is d' n') (es_store es sol od sn d n)
    = match find (e_is d' n') es with
      | Some e => Some (st_set od sn d n sol e)
      | None => find (e_is d' n') (map (fun b => opt_entry (fst b) (snd b) sol)
           (filter (fun b => negb (existsb (fun e => in_range od sn d n e && e_is (fst b) (snd b) e) es)) (budgets od sn d n)))
      end.
  Proof.
    unfold es_store. rewrite find_app. change (fun e => if in_range od sn d n e && negb (e_is_opt e) then e_set_opt e sol else e) with (st_set od sn d n sol).
    rewrite find_map_is by (intro e; apply st_set_is). destruct (find (e_is d' n') es); reflexivity.
  Qed.

  (** The first entry with budgets (d, n) is optimal with solution [x]. *)
  Definition fst_opt (es : list entry) (d n : nat) (x : node) : Prop :=
    exists e, find (e_is d n) es = Some e /\ e_is_opt e = true /\ e_opt e = x.
  Lemma fst_opt_store es sol od sn d n d' n' x : fst_opt es d' n' x -> fst_opt (es_store es sol od sn d n) d' n' x.
  Proof.
    intros (e & A1 & A2 & A3). exists e. rewrite find_store, A1, (st_set_opt _ _ _ _ _ _ A2). auto.
  Qed.
  Lemma fst_opt_upd g es lb d n d' n' x : fst_opt es d' n' x -> fst_opt (es_upd_lb T g es lb d n) d' n' x.
  Proof.
    intros (e & A1 & A2 & A3). unfold fst_opt. induction es as [|e0 es IH]; [discriminate|]. cbn [find es_upd_lb] in *.
    destruct (e_is d n e0) eqn:E0.
    - cbn [find]. assert (Hx : e_is d' n' (if g && e_is_opt e0 then e0 else e_upd_lb e0 lb) = e_is d' n' e0) by (destruct (_ && _); reflexivity).
      rewrite Hx. destruct (e_is d' n' e0); [|eauto]. injection A1 as ->. eexists. split; [reflexivity|].
      destruct (_ && _); cbn [e_upd_lb e_opt e_is_opt]; auto.
    - cbn [find]. destruct (e_is d' n' e0); [eauto|]. auto.
  Qed.
  Lemma fst_opt_optimal es d n x : fst_opt es d n x -> es_is_optimal es d n = true.
  Proof. intros (e & A1 & A2 & _). unfold es_is_optimal. rewrite A1. exact A2. Qed.
  Lemma fst_opt_retrieve es d n x : fst_opt es d n x -> es_retrieve T es d n = x.
  Proof.
    intros (e & A1 & A2 & A3). unfold es_retrieve. assert (find (fun e => e_is d n e && e_is_opt e) es = Some e) as ->; [|exact A3].
    clear A3. induction es as [|e0 es IH]; [discriminate|]. cbn [find] in *. destruct (e_is d n e0); cbn [andb]; [injection A1 as ->; rewrite A2; reflexivity|auto].
  Qed.
  Lemma store_fst es sol od sn d n : is_empty sol = false -> es_is_optimal es d n = false -> sn <= n -> od <= d -> d <= n -> fst_opt (es_store es sol od sn d n) d n sol.
  Proof.
    intros Hs Ho H1 H2 H3. unfold fst_opt. rewrite find_store. unfold es_is_optimal in Ho. destruct (find (e_is d n) es) as [e|] eqn:Ef.
    - eexists. split; [reflexivity|]. unfold st_set. rewrite Ho. apply find_some in Ef. destruct Ef as [_ Ef]. apply e_is_spec in Ef.
      assert (in_range od sn d n e = true) as -> by (apply in_range_spec; lia). cbn [andb negb]. rewrite e_set_opt_eq by exact Hs.
      unfold e_is_opt. cbn [e_opt]. rewrite Hs. auto.
    - set (bs := filter _ (budgets od sn d n)).
      assert (Hin : In (d, n) bs).
      { apply filter_In. split; [apply in_budgets; lia|]. apply negb_true_iff. apply not_true_is_false. intro Hx. apply existsb_exists in Hx.
        destruct Hx as (e & He & Hx). apply andb_true_iff in Hx. destruct Hx as [_ Hx]. cbn [fst snd] in Hx. pose proof (find_none _ _ Ef e He). congruence. }
      clearbody bs. induction bs as [|[db nb] bs IH]; [contradiction|]. cbn [map find fst snd].
      destruct (e_is d n (opt_entry db nb sol)) eqn:Ei; [|apply IH; destruct Hin as [Hin|Hin]; [injection Hin as -> ->; unfold e_is in Ei; cbn [opt_entry e_n e_d] in Ei; rewrite !Nat.eqb_refl in Ei; discriminate|exact Hin]].
      eexists. split; [reflexivity|]. unfold e_is_opt. cbn [opt_entry e_opt]. rewrite Hs. auto.
  Qed.
  Lemma store_optimal_larger es sol od sn d n d' n' : n < n' -> es_is_optimal (es_store es sol od sn d n) d' n' = es_is_optimal es d' n'.
  Proof.
    intro H. unfold es_is_optimal. rewrite find_store. destruct (find (e_is d' n') es) as [e|] eqn:Ef.
    - apply find_some in Ef. destruct Ef as [_ Ef]. apply e_is_spec in Ef. unfold st_set.
      destruct (in_range od sn d n e) eqn:Er; [|reflexivity]. apply in_range_spec in Er. lia.
    - destruct (find _ (map _ _)) as [e|] eqn:E2; [|reflexivity]. exfalso. apply find_some in E2. destruct E2 as [E2 E3]. apply e_is_spec in E3.
      apply in_map_iff in E2. destruct E2 as ([db nb] & <- & E2). apply filter_In in E2. destruct E2 as [E2 _]. apply in_budgets in E2. cbn in E3. lia.
  Qed.
  Lemma store_ne es sol od sn d n d' n' : is_empty (es_retrieve T es d' n') = false -> is_empty (es_retrieve T (es_store es sol od sn d n) d' n') = false.
  Proof.
    rewrite !retrieve_ne. intros (e & A1 & A2 & A3 & A4). exists e. split; [|auto]. unfold es_store. apply in_or_app. left.
    apply in_map_iff. exists e. split; [|exact A1]. rewrite A4, andb_false_r. reflexivity.
  Qed.
  Lemma store_ne_inv es sol od sn d n d' n' : is_empty (es_retrieve T (es_store es sol od sn d n) d' n') = false ->
    is_empty (es_retrieve T es d' n') = false \/ (sn <= n' <= n /\ od <= d' <= d).
  Proof.
    rewrite !retrieve_ne. intros (e & A1 & A2 & A3 & A4). unfold es_store in A1. apply in_app_or in A1. destruct A1 as [A1|A1].
    - apply in_map_iff in A1. destruct A1 as (e0 & <- & A1). destruct (in_range od sn d n e0 && negb (e_is_opt e0)) eqn:Er.
      + right. apply andb_true_iff in Er. destruct Er as [Er _]. apply in_range_spec in Er. cbn [e_set_opt e_d e_n] in A2, A3. lia.
      + left. eauto.
    - right. apply in_map_iff in A1. destruct A1 as ([db nb] & <- & A1). apply filter_In in A1. destruct A1 as [A1 _]. apply in_budgets in A1. cbn in A2, A3. lia.
  Qed.
  Lemma upd_ne g es lb d n d' n' : is_empty (es_retrieve T (es_upd_lb T g es lb d n) d' n') = is_empty (es_retrieve T es d' n').
  Proof.
    assert (H : es_retrieve T (es_upd_lb T g es lb d n) d' n' = es_retrieve T es d' n').
    { unfold es_retrieve. induction es as [|e es IH].
      - cbn [es_upd_lb find]. unfold e_is_opt. cbn [e_upd_lb new_entry e_opt]. cbn [init_sol value_node is_empty nd_feat nd_lab negb]. rewrite andb_false_r. reflexivity.
      - cbn [es_upd_lb]. destruct (e_is d n e) eqn:E; cbn [find].
        + assert (Hx : e_is d' n' (if g && e_is_opt e then e else e_upd_lb e lb) && e_is_opt (if g && e_is_opt e then e else e_upd_lb e lb) = e_is d' n' e && e_is_opt e)
            by (destruct (g && _); reflexivity).
          rewrite Hx. destruct (e_is d' n' e && e_is_opt e); [destruct (g && e_is_opt e); reflexivity|reflexivity].
        + destruct (e_is d' n' e && e_is_opt e); [reflexivity|exact IH]. }
    rewrite H. reflexivity.
  Qed.
  (** A property of the solution and the budgets of an entry. *)
  Lemma upd_all (P : node -> nat -> nat -> Prop) g es lb d n :
    Forall (fun e => e_is_opt e = true -> P (e_opt e) (e_d e) (e_n e)) es ->
    Forall (fun e => e_is_opt e = true -> P (e_opt e) (e_d e) (e_n e)) (es_upd_lb T g es lb d n).
  Proof.
    intro H. apply es_upd_lb_all; [exact H|discriminate|]. intros e He _ _. exact He.
  Qed.

  (** No two entries with the same budgets. *)
  Definition ekey (e : entry) : nat * nat := (e_d e, e_n e).
  Definition kk (es : list entry) : Prop := NoDup (map ekey es).
  Lemma e_is_key d n e : e_is d n e = true <-> ekey e = (d, n).
  Proof. rewrite e_is_spec. unfold ekey. split; [intros [-> ->]; reflexivity|intro H; injection H as -> ->; auto]. Qed.
  Lemma kk_optimal es d n : kk es -> is_empty (es_retrieve T es d n) = false -> es_is_optimal es d n = true.
  Proof.
    intros Hk H. apply retrieve_ne in H. destruct H as (e & A1 & A2 & A3 & A4). unfold es_is_optimal.
    induction es as [|e0 es IH]; [destruct A1|]. cbn [find]. unfold kk in Hk. cbn [map] in Hk. inversion Hk as [|? ? K1 K2]; subst.
    destruct (e_is (e_d e) (e_n e) e0) eqn:E0.
    - destruct A1 as [-> |A1]; [exact A4|]. exfalso. apply K1. apply e_is_key in E0. rewrite E0. apply (in_map ekey) in A1. exact A1.
    - destruct A1 as [-> |A1]; [|apply IH; assumption]. assert (e_is (e_d e) (e_n e) e = true) by (apply e_is_key; reflexivity). congruence.
  Qed.
  Lemma nodup_budgets od sn d n : NoDup (budgets od sn d n).
  Proof.
    unfold budgets. generalize (S n - sn) as len. intro len. revert sn. induction len as [|len IH]; intro sn; cbn [seq flat_map]; [constructor|].
    assert (Hd : forall A B (xs : list A) (ys : list A), NoDup xs -> NoDup ys -> (forall x, In x xs -> In x ys -> B = true /\ B = false) -> NoDup (xs ++ ys)).
    { clear. intros A B xs ys. induction xs as [|x xs IH]; intros H1 H2 H3; [exact H2|]. cbn [app]. inversion H1; subst. constructor.
      - intro Hx. apply in_app_or in Hx. destruct Hx as [Hx|Hx]; [contradiction|]. destruct (H3 x (or_introl eq_refl) Hx). congruence.
      - apply IH; auto. intros y Hy1 Hy2. apply (H3 y); [right; exact Hy1|exact Hy2]. }
    apply (Hd _ true); [|apply IH|].
    - apply FinFun.Injective_map_NoDup; [|apply seq_NoDup]. intros a b H. injection H as ->. reflexivity.
    - intros [db nb] H1 H2. exfalso. apply in_map_iff in H1. destruct H1 as (j & Hj & _). injection Hj as _ <-.
      apply in_flat_map in H2. destruct H2 as (k & Hk & Hin). apply in_map_iff in Hin. destruct Hin as (j' & Hj' & _). injection Hj' as _ ->.
      apply in_seq in Hk. lia.
  Qed.
  Lemma kk_store es sol od sn d n : kk es -> kk (es_store es sol od sn d n).
  Proof.
    intro H. unfold kk, es_store. rewrite map_app, !map_map.
    assert (E1 : map (fun x => ekey (if in_range od sn d n x && negb (e_is_opt x) then e_set_opt x sol else x)) es = map ekey es).
    { apply map_ext. intro e. destruct (_ && _); reflexivity. }
    rewrite E1. assert (E2 : forall bs : list (nat * nat), map (fun x => ekey (opt_entry (fst x) (snd x) sol)) bs = bs).
    { intro bs. rewrite <- (map_id bs) at 2. apply map_ext. intros [a c]. reflexivity. }
    rewrite E2. set (bs := filter _ _).
    assert (Hb : NoDup bs) by (apply NoDup_filter; apply nodup_budgets).
    assert (Hd : forall x, In x bs -> ~ In x (map ekey es)).
    { intros [db nb] Hx Hin. apply filter_In in Hx. destruct Hx as [H1 H2]. apply negb_true_iff in H2. apply in_map_iff in Hin. destruct Hin as (e & He & Hin).
      apply in_budgets in H1. assert (Hex : existsb (fun e => in_range od sn d n e && e_is (fst (db, nb)) (snd (db, nb)) e) es = true).
      { apply existsb_exists. exists e. split; [exact Hin|]. apply andb_true_iff. split; [|apply e_is_key; exact He]. injection He as <- <-. apply in_range_spec. lia. }
      congruence. }
    clearbody bs. clear E1 E2. unfold kk in H. revert H Hd. generalize (map ekey es) as ks. induction ks as [|k ks IH]; intros H1 H2; [exact Hb|].
    cbn [app]. inversion H1; subst. constructor.
    - intro Hx. apply in_app_or in Hx. destruct Hx as [Hx|Hx]; [contradiction|]. exact (H2 k Hx (or_introl eq_refl)).
    - apply IH; [assumption|]. intros x Hx Hy. apply (H2 x Hx). right. exact Hy.
  Qed.
  Lemma kk_snoc es e : kk es -> ~ In (ekey e) (map ekey es) -> kk (es ++ [e]).
  Proof.
    unfold kk. rewrite map_app. cbn [map]. generalize (map ekey es) as ks. induction ks as [|k ks IH]; intros H1 H2; cbn [app]; [repeat constructor; auto|].
    inversion H1; subst. constructor.
    - intro Hx. apply in_app_or in Hx. destruct Hx as [Hx|[Hx|[]]]; [contradiction|]. apply H2. left. exact (eq_sym Hx).
    - apply IH; [assumption|]. intro Hx. apply H2. right. exact Hx.
  Qed.
  Lemma kk_upd g es lb d n : kk es -> kk (es_upd_lb T g es lb d n).
  Proof.
    intro H. assert (Hk : map ekey (es_upd_lb T g es lb d n) = map ekey es \/ (map ekey (es_upd_lb T g es lb d n) = map ekey es ++ [(d, n)] /\ ~ In (d, n) (map ekey es))).
    { clear H. induction es as [|e es IH]; cbn [es_upd_lb map]; [right; split; [reflexivity|intros []]|].
      destruct (e_is d n e) eqn:Ei.
      - left. cbn [map]. f_equal. destruct (_ && _); reflexivity.
      - cbn [map]. destruct IH as [IH|[IH1 IH2]]; [left; rewrite IH; reflexivity|right]. rewrite IH1. split; [reflexivity|]. intros [Hx|Hx]; [|auto].
        apply e_is_key in Hx. congruence. }
    unfold kk in *. destruct Hk as [-> |[-> Hn]]; [exact H|].
    revert H Hn. generalize (map ekey es) as ks. induction ks as [|k ks IH]; intros H1 H2; cbn [app]; [repeat constructor; auto|].
    inversion H1; subst. constructor.
    - intro Hx. apply in_app_or in Hx. destruct Hx as [Hx|[Hx|[]]]; [contradiction|]. apply H2. left. exact (eq_sym Hx).
    - apply IH; [assumption|]. intro Hx. apply H2. right. exact Hx.
  Qed.

  (** Transfers between equivalent branches. *)
  Lemma transfer_one_keys src dst : map ekey (snd (transfer_one T src dst)) = map ekey dst
    /\ (fst (transfer_one T src dst) = true -> ~ In (ekey src) (map ekey dst)).
  Proof.
    induction dst as [|e r [IH1 IH2]]; cbn [transfer_one map]; [split; [reflexivity|intros _ []]|].
    destruct (e_is (e_d src) (e_n src) e) eqn:Ei.
    - destruct (_ || _); cbn [fst snd map].
      + split; [|discriminate]. f_equal. apply e_is_key in Ei. symmetry. exact Ei.
      + destruct (transfer_one T src r) as [a r']. cbn [fst snd map] in *. split; [f_equal; exact IH1|discriminate].
    - destruct (transfer_one T src r) as [a r']. cbn [fst snd map] in *. split; [f_equal; exact IH1|]. intros Ha [Hx|Hx]; [|exact (IH2 Ha Hx)].
      apply e_is_key in Hx. congruence.
  Qed.
  Lemma kk_step dst src : kk dst -> kk (transfer_step T dst src).
  Proof.
    intro H. unfold transfer_step. destruct (transfer_one_keys src dst) as [H1 H2]. destruct (transfer_one T src dst) as [a d']. cbn [fst snd] in *.
    assert (Hd : kk d') by (unfold kk; rewrite H1; exact H). destruct a; [|exact Hd]. apply kk_snoc; [exact Hd|]. rewrite H1. auto.
  Qed.
  Lemma kk_transfer src : forall dst, kk dst -> kk (fold_left (transfer_step T) src dst).
  Proof. induction src as [|e src IH]; intros dst H; cbn [fold_left]; [exact H|]. apply IH, kk_step, H. Qed.
  Lemma transfer_in src : forall dst x, In x (fold_left (transfer_step T) src dst) -> In x src \/ In x dst.
  Proof.
    intros dst x. pose proof (transfer_all T (fun y => In y src \/ In y dst) src dst) as H. rewrite !Forall_forall in H. apply H; auto.
  Qed.
  Definition hasn (es : list entry) (d n : nat) : Prop := is_empty (es_retrieve T es d n) = false.
  Lemma transfer_has_inv src dst d n : hasn (fold_left (transfer_step T) src dst) d n -> hasn src d n \/ hasn dst d n.
  Proof.
    unfold hasn. rewrite !retrieve_ne. intros (e & A1 & A2). apply transfer_in in A1. destruct A1 as [A1|A1]; eauto.
  Qed.
  Lemma step_keep dst src d n : ekey src <> (d, n) -> hasn dst d n -> hasn (transfer_step T dst src) d n.
  Proof.
    unfold hasn. rewrite !retrieve_ne. intros Hk (x & A1 & A2 & A3 & A4). exists x. split; [|auto]. unfold transfer_step.
    assert (Hin : In x (snd (transfer_one T src dst))).
    { clear - A1 A2 A3 Hk. induction dst as [|e r IH]; [destruct A1|]. cbn [transfer_one]. destruct (e_is (e_d src) (e_n src) e) eqn:Ei.
      - destruct A1 as [-> |A1]. { apply e_is_key in Ei. exfalso. apply Hk. unfold ekey in *. congruence. }
        destruct (_ || _); cbn [snd]; [right; exact A1|]. destruct (transfer_one T src r) as [a r']. cbn [snd] in *. right. auto.
      - destruct (transfer_one T src r) as [a r']. cbn [snd] in *. destruct A1 as [-> |A1]; [left; reflexivity|right; auto]. }
    destruct (transfer_one T src dst) as [a d']. cbn [snd] in Hin. destruct a; [apply in_or_app; left|]; exact Hin.
  Qed.
  Lemma step_new dst src : e_is_opt src = true -> hasn (transfer_step T dst src) (e_d src) (e_n src).
  Proof.
    intro Ho. unfold hasn. rewrite retrieve_ne. unfold transfer_step.
    assert (Hin : fst (transfer_one T src dst) = false -> exists x, In x (snd (transfer_one T src dst)) /\ e_d x = e_d src /\ e_n x = e_n src /\ e_is_opt x = true).
    { induction dst as [|e r IH]; cbn [transfer_one]; [discriminate|]. destruct (e_is (e_d src) (e_n src) e) eqn:Ei.
      - intros _. destruct ((e_is_opt src && negb (e_is_opt e)) || _) eqn:Ec; cbn [snd].
        + exists src. split; [left; reflexivity|auto].
        + destruct (transfer_one T src r) as [a r']. cbn [snd]. exists e. apply e_is_spec in Ei. split; [left; reflexivity|]. split; [tauto|]. split; [tauto|].
          apply orb_false_iff in Ec. destruct Ec as [Ec _]. rewrite Ho in Ec. cbn [andb] in Ec. apply negb_false_iff. exact Ec.
      - destruct (transfer_one T src r) as [a r']. cbn [fst snd] in *. intro Ha. destruct (IH Ha) as (x & X1 & X2). exists x. split; [right; exact X1|exact X2]. }
    destruct (transfer_one T src dst) as [a d']. cbn [fst snd] in Hin. destruct a; [|auto]. exists src. split; [apply in_or_app; right; left; reflexivity|auto].
  Qed.
  Lemma transfer_has src d n : kk src -> hasn src d n -> forall dst, hasn (fold_left (transfer_step T) src dst) d n.
  Proof.
    assert (Hkeep : forall src, ~ In (d, n) (map ekey src) -> forall dst, hasn dst d n -> hasn (fold_left (transfer_step T) src dst) d n).
    { clear src. induction src as [|e src IH]; intros Hn dst H; cbn [fold_left map In] in *; [exact H|]. apply IH; [tauto|]. apply step_keep; [tauto|exact H]. }
    intros Hk H. unfold hasn in H. rewrite retrieve_ne in H. destruct H as (x & A1 & A2 & A3 & A4).
    induction src as [|e src IH]; [destruct A1|]. intro dst. cbn [fold_left]. unfold kk in Hk. cbn [map] in Hk. inversion Hk as [|? ? K1 K2]; subst.
    destruct A1 as [-> |A1]; [|apply IH; assumption]. apply Hkeep; [exact K1|]. apply step_new. exact A4.
  Qed.
  Lemma store_has es sol od sn d n : is_empty sol = false -> sn <= n -> od <= d -> d <= n -> hasn (es_store es sol od sn d n) d n.
  Proof.
    intros Hs H1 H2 H3. unfold hasn. destruct (es_is_optimal es d n) eqn:Eo.
    - apply store_ne. apply (es_is_optimal_retrieve T (fun _ => True)). exact Eo.
    - erewrite fst_opt_retrieve; [exact Hs|]. apply store_fst; assumption.
  Qed.
End Vectors.
Section Three.
  Context (T : task) (G : cfg) (HT : good_task T) (root : view) (N : nat).
  Notation nf := (c_nf G).
  Notation mls := (c_mls G).
  Notation cost := (tree_cost (tk_inst T)).
  Notation worst := (tk_worst T).
  Notation V b := (restrict b root).
  Hypothesis Hids : ids_ok N root.
  Hypothesis Hsorted : view_sorted root.
  Hypothesis Hwf : wf_view nf root.
  Hypothesis Hred : forall f x, c_redundant G f = true -> In x (concat root) -> has f x = false.
  Hypothesis Hmls : 1 <= mls.
  Hypothesis Horder : forall v f, In f (c_order G v) <-> f < nf.
  Hypothesis Hworst : within T root.
  Hypothesis Hnl : 1 <= num_labels root.
  Hypothesis Hct : c_term G = true.

  (** The results of the depth-two solver on a view. *)
  Definition r2 (v : view) : node := r_two (term_solve T nf mls v [] 3).
  Definition r3 (v : view) : node := r_three (term_solve T nf mls v [] 3).

  Lemma loop_indep k b nl fs : forall s, pair_loop T nf mls k b nl fs s = pair_loop T nf mls k [] nl fs s.
  Proof.
    assert (H1 : forall c f, tbc_root T b c f = tbc_root T [] c f) by (intros; unfold tbc_root; rewrite !(gt_bc T HT); reflexivity).
    assert (H2 : forall c f g, tbc_child T b c f g = tbc_child T [] c f g) by (intros; unfold tbc_child; rewrite !(gt_bc T HT); reflexivity).
    induction fs as [|f fs IH]; intro s; cbn [pair_loop]; [reflexivity|]. destruct (tk_eq T 0 (nd_sol (ts_three s))); [reflexivity|]. rewrite IH. f_equal.
    assert (H3 : forall u g, pair_step T nf mls k b nl f u g = pair_step T nf mls k [] nl f u g).
    { intros u g. unfold pair_step. rewrite !H2. reflexivity. }
    assert (H4 : forall gs u, fold_left (pair_step T nf mls k b nl f) gs u = fold_left (pair_step T nf mls k [] nl f) gs u).
    { induction gs as [|g gs IHg]; intro u; cbn [fold_left]; [reflexivity|]. rewrite H3. apply IHg. }
    rewrite H4. unfold update_three, update_two. rewrite H1. reflexivity.
  Qed.
  Lemma term_indep b : mls <= vsize (V b) -> term_solve T nf mls (V b) b 3 = term_solve T nf mls (V b) [] 3.
  Proof.
    intro Hsz. unfold term_solve. cbn [Nat.eqb]. set (k := calc_of T nf false (V b)).
    assert (Ek : exact T nf false (V b) k) by (apply calc_of_exact; [apply (gt_true T HT)|apply wf_restrict; exact Hwf]).
    unfold term_results. destruct (k_tot k <? Z.of_nat mls)%Z; [reflexivity|]. cbn [Nat.eqb].
    assert (Ho : solve_one T nf mls k b (num_labels (V b)) = solve_one T nf mls k [] (num_labels (V b))).
    { assert (H1 : forall c f, tbc_root T b c f = tbc_root T [] c f) by (intros; unfold tbc_root; rewrite !(gt_bc T HT); reflexivity).
      assert (H3 : forall r f, one_split T nf mls k b (num_labels (V b)) r f = one_split T nf mls k [] (num_labels (V b)) r f).
      { intros r f. unfold one_split. rewrite H1. reflexivity. }
      unfold solve_one. generalize (one_leaf k (num_labels (V b)) (init_sol T)). induction (seq 0 nf) as [|g gs IH]; intro r; cbn [fold_left]; [reflexivity|]. rewrite H3. apply IH. }
    rewrite Ho. destruct (tk_eq T 0 _); [reflexivity|].
    assert (Hp : pair_features T nf mls k b = pair_features T nf mls k []).
    { unfold pair_features. apply filter_ext_in. intros f Hf. apply in_seq in Hf.
      destruct (br_has b f) eqn:Eb; [|reflexivity]. rewrite (rd_count0 _ _ _ _ _ Ek f ltac:(lia)), (rd_count1 _ _ _ _ _ Ek f ltac:(lia)).
      pose proof (br_has_empty b f root Eb) as Hx.
      assert (Hz : ge_mls mls (Z.of_nat (vsize (split_left f (V b)))) && ge_mls mls (Z.of_nat (vsize (split_right f (V b)))) = false).
      { apply andb_false_iff. unfold ge_mls. rewrite !Z.leb_gt. lia. }
      cbn [negb]. rewrite andb_false_r. cbn [andb]. symmetry. rewrite <- (andb_assoc (tk_may T f && negb (br_has [] f))), Hz, andb_false_r. reflexivity. }
    rewrite Hp, loop_indep. reflexivity.
  Qed.
  Lemma wits3 b : mls <= vsize (V b) ->
    wit T G (V b) 2 (r2 (V b)) /\ num_nodes (r2 (V b)) <= 2 /\ wit T G (V b) 2 (r3 (V b)) /\ num_nodes (r3 (V b)) <= 3
    /\ (num_nodes (r3 (V b)) <= 2 -> r3 (V b) = r2 (V b)).
  Proof.
    intro Hsz. assert (Hnl' : 1 <= num_labels (V b)) by (rewrite (V_nl root); exact Hnl).
    unfold r2, r3. rewrite <- (term_indep b Hsz).
    destruct (term_wits T G HT (V b) b Hmls ltac:(intro t; apply cost_lt_worst; assumption) (fun f => br_has_empty b f root) (wf_restrict _ _ _ Hwf) Hnl' Hsz 3 ltac:(lia))
      as (W1 & W2 & W3 & W4 & _ & _ & _ & W8). auto.
  Qed.


  Lemma wits3' b : mls <= vsize (V b) ->
    wit T G (V b) 1 (r_one (term_solve T nf mls (V b) [] 3)) /\ num_nodes (r_one (term_solve T nf mls (V b) [] 3)) <= 1
    /\ LB T G (V b) 1 1 (nd_sol (r_one (term_solve T nf mls (V b) [] 3)))
    /\ LB T G (V b) 1 1 (nd_sol (r2 (V b))) /\ LB T G (V b) 1 1 (nd_sol (r3 (V b))) /\ (mls = 1 -> LB T G (V b) 2 3 (nd_sol (r3 (V b)))).
  Proof.
    intro Hsz. assert (Hnl' : 1 <= num_labels (V b)) by (rewrite (V_nl root); exact Hnl).
    destruct (term_one T G HT (V b) [] Hmls ltac:(intro t; apply cost_lt_worst; assumption) (wf_restrict _ _ _ Hwf) Hnl' Hsz 3 ltac:(lia)) as (A1 & A2 & A3).
    split; [exact A1|]. split; [exact A2|]. split; [exact A3|]. rewrite <- (term_indep b Hsz) in A3. unfold r2, r3. rewrite <- (term_indep b Hsz).
    destruct (term_wits T G HT (V b) b Hmls ltac:(intro t; apply cost_lt_worst; assumption) (fun f => br_has_empty b f root) (wf_restrict _ _ _ Hwf) Hnl' Hsz 3 ltac:(lia))
      as (_ & _ & _ & _ & W5 & W6 & _).
    split; [intros t Ht; specialize (A3 t Ht); lia|]. split; [intros t Ht; specialize (A3 t Ht); lia|].
    intro Hm. apply (term_three T G HT (V b) b Hmls ltac:(intro t; apply cost_lt_worst; assumption) (fun f => br_has_empty b f root) (wf_restrict _ _ _ Hwf) Hnl' Hsz 3 Hm). lia.
  Qed.

  (** ** The caches *)
  (** The vectors the two caches look at. *)
  Definition bes (c : caches) (b : branch) : list entry := if cc_use_branch c then bc_get c b else [].
  Definition des (c : caches) (v : view) : list entry := if cc_use_data c then dc_get c v else [].
  (** An optimal solution with these budgets is known. *)
  Definition ne (c : caches) (b : branch) (d n : nat) : Prop := hasn T (bes c b) d n \/ hasn T (des c (V b)) d n.
  Definition proper (b : branch) : Prop := vsize (V b) < vsize root.
  Definition P2 (v : view) (x : node) (d n : nat) : Prop :=
    (d = 2 -> n = 2 -> x = r2 v) /\ (d = 2 -> n = 3 -> x = r3 v) /\ (d = 1 -> n = 1 -> LB T G v 1 1 (nd_sol x)).
  Definition gv (v : view) (es : list entry) : Prop :=
    kk es /\ Forall (fun e => e_is_opt e = true -> P2 v (e_opt e) (e_d e) (e_n e)) es.
  Definition D0 (c : caches) : Prop := cc_n c = N /\ forall b, proper b -> gv (V b) (bes c b) /\ gv (V b) (des c (V b)).
  Definition J (c : caches) (b : branch) : Prop := ne c b 2 2 <-> ne c b 2 3.
  Definition Dc (c : caches) : Prop := D0 c /\ forall b, proper b -> J c b.
  Definition Dv (es : list entry) : Prop := Forall (fun e => e_is_opt e = true -> e_d e <= 2 /\ num_nodes (e_opt e) <= e_n e) es.
  Definition Dr (c : caches) : Prop := Dv (bes c []) /\ Dv (des c root).
  Definition keep (c c' : caches) : Prop := cc_use_branch c' = cc_use_branch c /\ cc_use_data c' = cc_use_data c /\ forall b, ne c b 2 3 -> ne c' b 2 3.

  Lemma keep_refl c : keep c c.
  Proof. split; [reflexivity|]. split; [reflexivity|]. auto. Qed.
  Lemma keep_trans c1 c2 c3 : keep c1 c2 -> keep c2 c3 -> keep c1 c3.
  Proof. intros (A1 & A2 & A3) (B1 & B2 & B3). split; [congruence|]. split; [congruence|]. auto. Qed.

  Lemma c_retrieve_eq c v b d n : c_retrieve T c v b d n = if is_empty (es_retrieve T (bes c b) d n) then es_retrieve T (des c v) d n else es_retrieve T (bes c b) d n.
  Proof.
    unfold c_retrieve, bes, des. destruct (cc_use_branch c), (cc_use_data c); cbn [es_retrieve find]; try reflexivity; rewrite ?retrieve_self; reflexivity.
  Qed.
  Lemma c_optimal_eq c v b d n : c_is_optimal c v b d n = es_is_optimal (bes c b) d n || es_is_optimal (des c v) d n.
  Proof. unfold c_is_optimal, bes, des. destruct (cc_use_branch c), (cc_use_data c); reflexivity. Qed.
  Lemma ne_retrieve c b d n : ne c b d n <-> is_empty (c_retrieve T c (V b) b d n) = false.
  Proof.
    rewrite c_retrieve_eq. unfold ne, hasn. destruct (is_empty (es_retrieve T (bes c b) d n)) eqn:E.
    - split; [intros [H|H]; [discriminate|exact H]|auto].
    - rewrite E. split; auto.
  Qed.
  Lemma optimal_ne c b d n : c_is_optimal c (V b) b d n = true -> ne c b d n.
  Proof.
    rewrite c_optimal_eq, orb_true_iff. intros [H|H]; [left|right]; apply (es_is_optimal_retrieve T (fun _ => True)); exact H.
  Qed.
  Lemma ne_optimal c b d n : D0 c -> proper b -> ne c b d n -> c_is_optimal c (V b) b d n = true.
  Proof.
    intros [_ H] Hb Hn. destruct (H b Hb) as [[K1 _] [K2 _]]. rewrite c_optimal_eq, orb_true_iff.
    destruct Hn as [Hn|Hn]; [left|right]; apply (kk_optimal T); assumption.
  Qed.
  Lemma cached_r b : forall c, D0 c -> proper b -> ne c b 2 2 -> c_retrieve T c (V b) b 2 2 = r2 (V b).
  Proof.
    intros c [_ H] Hb Hn. destruct (H b Hb) as [[_ K1] [_ K2]]. rewrite Forall_forall in K1, K2.
    apply ne_retrieve in Hn. rewrite c_retrieve_eq in *. destruct (is_empty (es_retrieve T (bes c b) 2 2)) eqn:E.
    - destruct (es_retrieve_find T (fun _ => True) (des c (V b)) 2 2) as [X|(e & Y1 & Y2 & Y3 & Y4 & Y5)]; [rewrite X in Hn; discriminate|].
      rewrite Y5. apply (K2 e Y1 Y4); assumption.
    - destruct (es_retrieve_find T (fun _ => True) (bes c b) 2 2) as [X|(e & Y1 & Y2 & Y3 & Y4 & Y5)]; [rewrite X in E; discriminate|].
      rewrite Y5. apply (K1 e Y1 Y4); assumption.
  Qed.
  Lemma cached_P b d n : forall c, D0 c -> proper b -> ne c b d n -> P2 (V b) (c_retrieve T c (V b) b d n) d n.
  Proof.
    intros c [_ H] Hb Hn. destruct (H b Hb) as [[_ K1] [_ K2]]. rewrite Forall_forall in K1, K2.
    apply ne_retrieve in Hn. rewrite c_retrieve_eq in *. destruct (is_empty (es_retrieve T (bes c b) d n)) eqn:E.
    - destruct (es_retrieve_find T (fun _ => True) (des c (V b)) d n) as [X|(e & Y1 & Y2 & Y3 & Y4 & Y5)]; [rewrite X in Hn; discriminate|].
      rewrite Y5, <- Y2, <- Y3. apply (K2 e Y1 Y4).
    - destruct (es_retrieve_find T (fun _ => True) (bes c b) d n) as [X|(e & Y1 & Y2 & Y3 & Y4 & Y5)]; [rewrite X in E; discriminate|].
      rewrite Y5, <- Y2, <- Y3. apply (K1 e Y1 Y4).
  Qed.

  (** A change of the vectors of one branch and of one data set. *)
  Definition loc (c : caches) (v : view) (b : branch) (F H : list entry -> list entry) : caches :=
    let c := if cc_use_branch c then bc_set c b (F (bc_get c b)) else c in
    if cc_use_data c then dc_set c v (H (dc_get c v)) else c.
  Lemma loc_flags c v b F H : cc_use_branch (loc c v b F H) = cc_use_branch c /\ cc_use_data (loc c v b F H) = cc_use_data c /\ cc_n (loc c v b F H) = cc_n c.
  Proof. unfold loc. destruct (cc_use_branch c) eqn:E1; cbn [bc_set cc_use_data]; destruct (cc_use_data c) eqn:E2; cbn; auto. Qed.
  Lemma loc_bes c v b F H b' : bes (loc c v b F H) b' = if cc_use_branch c && br_eqb b' b then F (bes c b) else bes c b'.
  Proof.
    unfold bes. destruct (loc_flags c v b F H) as (-> & _). destruct (cc_use_branch c) eqn:E1; [|reflexivity]. cbn [andb].
    unfold loc. rewrite E1. cbn [bc_set cc_use_data].
    transitivity (bc_get (bc_set c b (F (bc_get c b))) b'); [destruct (cc_use_data c); reflexivity|]. apply bc_get_set.
  Qed.
  Lemma loc_des c v b F H v' : des (loc c v b F H) v' = if cc_use_data c && bits_eqb (dkey (cc_n c) v') (dkey (cc_n c) v) then H (des c v) else des c v'.
  Proof.
    unfold des. destruct (loc_flags c v b F H) as (_ & -> & _). destruct (cc_use_data c) eqn:E1; [|reflexivity]. cbn [andb].
    unfold loc. destruct (cc_use_branch c); cbn [bc_set cc_use_data]; rewrite E1, dc_get_set; reflexivity.
  Qed.
  Definition stF sol d n es := es_store es sol (Nat.min d n) (num_nodes sol) d n.
  Definition stH sol d n es := es_store es sol (Nat.min d (num_nodes sol)) (num_nodes sol) d n.
  Lemma store_loc c v b sol d n : c_store c v b sol d n = loc c v b (stF sol d n) (stH sol d n).
  Proof. reflexivity. Qed.
  Lemma upd_loc c v b lb d n : c_upd_lb T c v b lb d n = c \/ c_upd_lb T c v b lb d n = loc c v b (fun es => es_upd_lb T true es lb d n) (fun es => es_upd_lb T false es lb d n).
  Proof. unfold c_upd_lb. destruct (cc_use_lb c); auto. Qed.

  (** Properties of the vectors that are kept. *)
  Lemma gv_store v es sol od sn d n : is_empty sol = false -> gv v es ->
    (forall db nb, sn <= nb <= n -> od <= db <= d -> P2 v sol db nb) -> gv v (es_store es sol od sn d n).
  Proof.
    intros Hs [H1 H2] H. split; [apply kk_store; exact H1|]. apply es_store_all; [exact Hs|exact H2|]. intros db nb A1 A2 _. cbn [e_opt e_d e_n]. auto.
  Qed.
  Lemma gv_upd v g es lb d n : gv v es -> gv v (es_upd_lb T g es lb d n).
  Proof. intros [H1 H2]. split; [apply kk_upd; exact H1|]. apply (upd_all T (P2 v)). exact H2. Qed.
  Lemma Dv_store es sol od d n : is_empty sol = false -> d <= 2 -> Dv es -> Dv (es_store es sol od (num_nodes sol) d n).
  Proof. intros Hs Hd H. apply es_store_all; [exact Hs|exact H|]. intros db nb D1 D2 _. cbn [e_opt e_d e_n]. lia. Qed.
  Lemma Dv_upd g es lb d n : Dv es -> Dv (es_upd_lb T g es lb d n).
  Proof. intro H. apply (upd_all T (fun x d n => d <= 2 /\ num_nodes x <= n)). exact H. Qed.

  Lemma D0_loc c b F H : D0 c -> (proper b -> gv (V b) (bes c b) -> gv (V b) (F (bes c b))) ->
    (proper b -> gv (V b) (des c (V b)) -> gv (V b) (H (des c (V b)))) -> D0 (loc c (V b) b F H).
  Proof.
    intros [H1 H2] HF HH. destruct (loc_flags c (V b) b F H) as (_ & _ & L). split; [congruence|]. intros b' Hb. destruct (H2 b' Hb) as [A1 A2]. rewrite loc_bes, loc_des. split.
    - destruct (cc_use_branch c && br_eqb b' b) eqn:E; [|exact A1]. apply andb_true_iff in E. destruct E as [_ E]. apply br_eqb_eq in E. subst b'. auto.
    - destruct (cc_use_data c && _) eqn:E; [|exact A2]. apply andb_true_iff in E. destruct E as [_ E]. apply bits_eqb_eq in E. rewrite H1 in E.
      apply (dkey_restrict_eq N root) in E; [|exact Hids]. unfold proper in *. rewrite E in *. auto.
  Qed.
  Lemma Dr_loc c v b F H : Dr c -> (Dv (bes c b) -> Dv (F (bes c b))) -> (Dv (des c v) -> Dv (H (des c v))) -> Dr (loc c v b F H).
  Proof.
    intros [H1 H2] HF HH. split; rewrite ?loc_bes, ?loc_des.
    - destruct (cc_use_branch c && br_eqb [] b) eqn:E; [|exact H1]. apply andb_true_iff in E. destruct E as [_ E]. apply br_eqb_eq in E. subst b. auto.
    - destruct (cc_use_data c && _) eqn:E; [|exact H2]. apply andb_true_iff in E. destruct E as [E0 E]. apply bits_eqb_eq in E.
      assert (Ed : des c root = des c v) by (unfold des; rewrite E0; unfold dc_get; rewrite E; reflexivity). rewrite Ed in H2. auto.
  Qed.
  Lemma ne_loc c b F H b' d n : (hasn T (bes c b) d n -> hasn T (F (bes c b)) d n) -> (hasn T (des c (V b)) d n -> hasn T (H (des c (V b))) d n) -> ne c b' d n -> ne (loc c (V b) b F H) b' d n.
  Proof.
    intros HF HH [Hn|Hn]; [left|right]; rewrite ?loc_bes, ?loc_des.
    - destruct (cc_use_branch c && br_eqb b' b) eqn:E; [|exact Hn]. apply andb_true_iff in E. destruct E as [_ E]. apply br_eqb_eq in E. subst b'. auto.
    - destruct (cc_use_data c && _) eqn:E; [|exact Hn]. apply andb_true_iff in E. destruct E as [E0 E]. apply bits_eqb_eq in E.
      assert (Ed : des c (V b') = des c (V b)) by (unfold des; rewrite E0; unfold dc_get; rewrite E; reflexivity). rewrite Ed in Hn. auto.
  Qed.
  Lemma ne_loc_inv c b F H b' d n : (hasn T (F (bes c b)) d n -> hasn T (bes c b) d n) -> (hasn T (H (des c (V b))) d n -> hasn T (des c (V b)) d n) -> ne (loc c (V b) b F H) b' d n -> ne c b' d n.
  Proof.
    intros HF HH [Hn|Hn]; [left|right]; rewrite ?loc_bes, ?loc_des in Hn.
    - destruct (cc_use_branch c && br_eqb b' b) eqn:E; [|exact Hn]. apply andb_true_iff in E. destruct E as [_ E]. apply br_eqb_eq in E. subst b'. auto.
    - destruct (cc_use_data c && _) eqn:E; [|exact Hn]. apply andb_true_iff in E. destruct E as [E0 E]. apply bits_eqb_eq in E.
      assert (Ed : des c (V b') = des c (V b)) by (unfold des; rewrite E0; unfold dc_get; rewrite E; reflexivity). rewrite Ed. auto.
  Qed.

  (** Lower bounds. *)
  Lemma upd_ne_iff c b lb d n b' d' n' : ne (c_upd_lb T c (V b) b lb d n) b' d' n' <-> ne c b' d' n'.
  Proof.
    destruct (upd_loc c (V b) b lb d n) as [-> | ->]; [tauto|]. split; [apply ne_loc_inv|apply ne_loc]; unfold hasn; rewrite upd_ne; auto.
  Qed.
  Lemma upd_flags c v b lb d n : cc_use_branch (c_upd_lb T c v b lb d n) = cc_use_branch c /\ cc_use_data (c_upd_lb T c v b lb d n) = cc_use_data c.
  Proof.
    destruct (upd_loc c v b lb d n) as [-> | ->]; [auto|]. destruct (loc_flags c v b (fun es => es_upd_lb T true es lb d n) (fun es => es_upd_lb T false es lb d n)) as (A & B & _). auto.
  Qed.
  Lemma keep_upd c b lb d n : keep c (c_upd_lb T c (V b) b lb d n).
  Proof. destruct (upd_flags c (V b) b lb d n) as [A B]. split; [exact A|]. split; [exact B|]. intros b'. apply upd_ne_iff. Qed.
  Lemma Dc_upd c b lb d n : Dc c -> Dc (c_upd_lb T c (V b) b lb d n).
  Proof.
    intros [H1 H2]. split.
    - destruct (upd_loc c (V b) b lb d n) as [-> | ->]; [exact H1|]. apply D0_loc; [exact H1|intros _; apply gv_upd|intros _; apply gv_upd].
    - intros b' Hb. unfold J. rewrite !upd_ne_iff. apply H2. exact Hb.
  Qed.
  Lemma Dr_upd c b lb d n : Dr c -> Dr (c_upd_lb T c (V b) b lb d n).
  Proof.
    intro H. destruct (upd_loc c (V b) b lb d n) as [-> | ->]; [exact H|]. apply Dr_loc; [exact H|apply Dv_upd|apply Dv_upd].
  Qed.

  (** Storing a solution. *)
  Lemma ne_store c b sol d n b' d' n' : ne c b' d' n' -> ne (c_store c (V b) b sol d n) b' d' n'.
  Proof. rewrite store_loc. apply ne_loc; apply store_ne. Qed.
  Lemma ne_store_inv c b sol d n b' d' n' : ~ (num_nodes sol <= n' <= n /\ d' <= d) -> ne (c_store c (V b) b sol d n) b' d' n' -> ne c b' d' n'.
  Proof.
    intro Hx. rewrite store_loc. apply ne_loc_inv; intro H; apply store_ne_inv in H; (destruct H as [H|H]; [exact H|lia]).
  Qed.
  Lemma store_flags c v b sol d n : cc_use_branch (c_store c v b sol d n) = cc_use_branch c /\ cc_use_data (c_store c v b sol d n) = cc_use_data c.
  Proof. rewrite store_loc. destruct (loc_flags c v b (stF sol d n) (stH sol d n)) as (A & B & _). auto. Qed.
  Lemma keep_store c b sol d n : keep c (c_store c (V b) b sol d n).
  Proof. destruct (store_flags c (V b) b sol d n) as [A B]. split; [exact A|]. split; [exact B|]. intros b'. apply ne_store. Qed.
  Lemma D0_store c b sol d n : D0 c -> is_empty sol = false ->
    (proper b -> forall db nb, num_nodes sol <= nb <= n -> Nat.min d (num_nodes sol) <= db <= d -> P2 (V b) sol db nb) -> D0 (c_store c (V b) b sol d n).
  Proof.
    intros H1 Hs H. rewrite store_loc. apply D0_loc; [exact H1| |]; intros Hb Hg; apply gv_store; try assumption; intros db nb A1 A2; apply H; try assumption; lia.
  Qed.
  Lemma Dr_store c b sol d n : Dr c -> is_empty sol = false -> d <= 2 -> Dr (c_store c (V b) b sol d n).
  Proof. intros H Hs Hd. rewrite store_loc. apply Dr_loc; [exact H| |]; apply Dv_store; assumption. Qed.
  (** A store for the root does not touch other data sets. *)
  Lemma Dc_store_root c sol d n : Dc c -> is_empty sol = false -> Dc (c_store c root [] sol d n).
  Proof.
    intros [H1 H2] Hs. rewrite <- (restrict_nil root) at 1. assert (Hp : ~ proper []) by (unfold proper; rewrite restrict_nil; lia).
    split; [apply D0_store; [exact H1|exact Hs|tauto]|]. intros b Hb.
    assert (Hx : forall d' n', ne (c_store c (V []) [] sol d n) b d' n' <-> ne c b d' n').
    { intros d' n'. unfold ne. rewrite store_loc, loc_bes, loc_des.
      destruct (cc_use_branch c && br_eqb b []) eqn:E.
      { exfalso. apply andb_true_iff in E. destruct E as [_ E]. apply br_eqb_eq in E. subst b. tauto. }
      destruct (cc_use_data c && _) eqn:E2; [|tauto].
      exfalso. apply andb_true_iff in E2. destruct E2 as [_ E2]. apply bits_eqb_eq in E2. destruct H1 as [H1 _]. rewrite H1 in E2.
      apply (dkey_restrict_eq N root) in E2; [|exact Hids]. unfold proper in *. rewrite E2 in Hb. tauto. }
    unfold J. rewrite !Hx. apply H2. exact Hb.
  Qed.

  (** Transfers. *)
  Lemma transfer_cases c eb b : c_transfer T c eb b = c \/ (cc_use_branch c = true /\ exists es, c_transfer T c eb b = bc_set c b es
    /\ (kk (bc_get c eb) -> kk (bc_get c b) -> kk es) /\ (forall x, In x es -> In x (bc_get c eb) \/ In x (bc_get c b))
    /\ (forall d n, hasn T es d n -> hasn T (bc_get c eb) d n \/ hasn T (bc_get c b) d n)
    /\ (kk (bc_get c eb) -> forall d n, hasn T (bc_get c eb) d n -> hasn T es d n)
    /\ (b = [] -> bc_get c b = [])).
  Proof.
    unfold c_transfer. destruct (negb (cc_use_lb c) || br_eqb eb b || negb (cc_use_branch c)) eqn:E0; [auto|].
    rewrite !orb_false_iff, !negb_false_iff in E0. destruct E0 as [[_ E1] E2].
    unfold bc_get, aget. destruct (alookup br_eqb eb (cc_branch c)) as [src|]; [|auto]. destruct (alookup br_eqb b (cc_branch c)) as [dst|].
    - destruct (br_depth eb =? br_depth b) eqn:Ed; [|auto]. right. split; [exact E2|]. eexists. split; [reflexivity|].
      split; [intros _; apply kk_transfer|]. split; [apply transfer_in|]. split; [apply transfer_has_inv|]. split; [intros Hk d n Hh; apply transfer_has; assumption|].
      intros ->. apply Nat.eqb_eq in Ed. unfold br_depth in Ed. destruct eb; [|discriminate]. cbn in E1. discriminate.
    - right. split; [exact E2|]. exists src. split; [reflexivity|]. auto 6.
  Qed.
  Lemma transfer3 c eb b : V eb = V b -> proper b -> Dc c -> Dr c -> ~ ne c b 2 3 ->
    Dc (c_transfer T c eb b) /\ Dr (c_transfer T c eb b) /\ keep c (c_transfer T c eb b).
  Proof.
    intros EV Hb HD HR Hn. destruct (transfer_cases c eb b) as [-> |(Hu & es & -> & K1 & K2 & K3 & K4 & _)]; [split; [exact HD|]; split; [exact HR|]; apply keep_refl|].
    assert (Hbe : forall b', bes (bc_set c b es) b' = if br_eqb b' b then es else bes c b').
    { intro b'. unfold bes. cbn [bc_set cc_use_branch]. rewrite Hu. apply (bc_get_set c b es b'). }
    assert (Hde : forall v, des (bc_set c b es) v = des c v) by reflexivity.
    assert (Eb : bes c b = bc_get c b /\ bes c eb = bc_get c eb) by (unfold bes; rewrite Hu; auto). destruct Eb as [Eb Ee].
    assert (Hb' : b <> []) by (intros ->; unfold proper in Hb; rewrite restrict_nil in Hb; lia).
    destruct HD as [[HN H1] H2]. destruct (H1 b Hb) as [[A1 A2] A3]. destruct (H1 eb ltac:(unfold proper; rewrite EV; exact Hb)) as [[B1 B2] _].
    rewrite Eb in A1, A2. rewrite Ee in B1, B2. rewrite EV in B2.
    split; [|split].
    - split.
      + split; [exact HN|]. intros b' Hp. rewrite Hbe, Hde. destruct (H1 b' Hp) as [X1 X2]. split; [|exact X2].
        destruct (br_eqb b' b) eqn:E; [|exact X1]. apply br_eqb_eq in E. subst b'. split; [auto|]. rewrite Forall_forall in *. intros x Hx. destruct (K2 x Hx); auto.
      + intros b' Hp. pose proof (H2 b' Hp) as Hj. unfold J, ne in *. rewrite Hbe, Hde. destruct (br_eqb b' b) eqn:E; [|exact Hj]. apply br_eqb_eq in E. subst b'.
        pose proof (H2 eb ltac:(unfold proper; rewrite EV; exact Hb)) as He. rewrite EV, Ee in He. rewrite Eb in Hj, Hn.
        pose proof (K3 2 2). pose proof (K3 2 3). pose proof (K4 B1 2 2). pose proof (K4 B1 2 3). tauto.
    - destruct HR as [R1 R2]. split; [|exact R2]. rewrite Hbe. destruct (br_eqb [] b) eqn:E; [|exact R1]. apply br_eqb_eq in E. subst b. contradiction.
    - split; [reflexivity|]. split; [reflexivity|]. intros b' Hx. unfold ne in *. rewrite Hbe, Hde. destruct (br_eqb b' b) eqn:E; [|exact Hx].
      apply br_eqb_eq in E. subst b'. contradiction.
  Qed.

  (** The archive of similar data sets. *)
  Lemma sim3 b ar : proper b -> (forall ev eb, In (ev, eb) ar -> ev = V eb) -> forall c lb, Dc c -> Dr c -> ~ ne c b 2 3 ->
    Dc (snd (sim_loop T ar (V b) b 2 3 c lb)) /\ Dr (snd (sim_loop T ar (V b) b 2 3 c lb)) /\ keep c (snd (sim_loop T ar (V b) b 2 3 c lb)).
  Proof.
    intros Hb. induction ar as [|[ev eb] ar IH]; intros Har c lb HD HR Hn; cbn [sim_loop]; [split; [exact HD|]; split; [exact HR|]; apply keep_refl|].
    assert (Har' : forall ev eb, In (ev, eb) ar -> ev = V eb) by (intros; apply Har; right; assumption).
    assert (Ee : ev = V eb) by (apply Har; left; reflexivity). subst ev.
    destruct (_ <? _); [apply IH; assumption|]. destruct (sim_skip _ _ _); [apply IH; assumption|].
    destruct (total_difference _ =? 0) eqn:Et; [|apply IH; assumption]. apply Nat.eqb_eq in Et. apply total_difference_zero in Et; [|exact Hsorted].
    destruct (transfer3 c eb b Et Hb HD HR Hn) as (A1 & A2 & A3).
    destruct (c_is_optimal (c_transfer T c eb b) (V b) b 2 3) eqn:Eo; cbn [snd]; [auto|].
    assert (Hn' : ~ ne (c_transfer T c eb b) b 2 3) by (intro Hx; apply ne_optimal in Hx; [congruence|apply A1|exact Hb]).
    match goal with |- context [sim_loop T ar (V b) b 2 3 _ ?l] => destruct (IH Har' (c_transfer T c eb b) l A1 A2 Hn') as (B1 & B2 & B3) end.
    split; [exact B1|]. split; [exact B2|]. eapply keep_trans; eassumption.
  Qed.
  Lemma update3 b s : proper b -> (forall d ev eb, In (ev, eb) (s_ar s d) -> ev = V eb) -> Dc (s_c s) -> Dr (s_c s) -> ~ ne (s_c s) b 2 3 ->
    let s' := snd (update_sim T G s (V b) b 2 3) in Dc (s_c s') /\ Dr (s_c s') /\ keep (s_c s) (s_c s') /\ s_ar s' = s_ar s.
  Proof.
    intros Hb Har HD HR Hn. unfold update_sim. destruct (c_sim G); [|cbn; split; [exact HD|]; split; [exact HR|]; split; [apply keep_refl|reflexivity]].
    pose proof (sim3 b (s_ar s 2) Hb (Har 2) (s_c s) init_lb HD HR Hn) as H. destruct (sim_loop _ _ _ _ _ _ _ _) as [[lb o] c]. cbn [snd] in H. destruct H as (A1 & A2 & A3).
    assert (Hs : Dc c /\ Dr c /\ keep (s_c s) c /\ s_ar s = s_ar s) by auto.
    destruct (is_empty lb); [exact Hs|]. destruct o; [exact Hs|]. destruct (tk_eq T _ _); [exact Hs|]. cbn [snd set_c s_c s_ar].
    split; [apply Dc_upd; exact A1|]. split; [apply Dr_upd; exact A2|]. split; [|reflexivity]. eapply keep_trans; [exact A3|]. apply keep_upd.
  Qed.
  Lemma update0 v b d n s : s_ar s d = [] -> update_sim T G s v b d n = (false, s).
  Proof. intro H. unfold update_sim. destruct (c_sim G); [|reflexivity]. rewrite H. cbn [sim_loop init_lb value_node is_empty nd_feat nd_lab]. destruct s; reflexivity. Qed.

  (** The first solution of the root with three nodes. *)
  Definition R (c : caches) (x : node) : Prop := if cc_use_branch c then fst_opt (bc_get c []) 2 3 x else fst_opt (des c root) 2 3 x.
  Lemma R_loc c v b F H x : (forall es, fst_opt es 2 3 x -> fst_opt (F es) 2 3 x) -> (forall es, fst_opt es 2 3 x -> fst_opt (H es) 2 3 x) -> R c x -> R (loc c v b F H) x.
  Proof.
    intros HF HH. unfold R. destruct (loc_flags c v b F H) as (E1 & _). rewrite E1. destruct (cc_use_branch c) eqn:Eu.
    - pose proof (loc_bes c v b F H []) as Hl. unfold bes in Hl. rewrite E1, Eu in Hl. rewrite Hl. cbn [andb].
      destruct (br_eqb [] b) eqn:E; [|auto]. apply br_eqb_eq in E. subst b. apply HF.
    - rewrite loc_des. destruct (cc_use_data c && _) eqn:E; [|auto]. apply andb_true_iff in E. destruct E as [E0 E]. apply bits_eqb_eq in E.
      assert (Ed : des c root = des c v) by (unfold des; rewrite E0; unfold dc_get; rewrite E; reflexivity). rewrite Ed. apply HH.
  Qed.
  Lemma R_sub x fuel v b ub d n s : R (s_c s) x -> R (s_c (snd (solve_sub T G fuel v b ub d n s))) x.
  Proof.
    apply (keep_sub T G (fun s => R (s_c s) x)); intros; cbn [set_c set_ar set_err s_c] in *; auto.
    - unfold in_time. destruct (s_on s0); assumption.
    - rewrite store_loc. apply R_loc; [..|assumption]; intros; apply fst_opt_store; assumption.
    - destruct (upd_loc c v0 b0 lb d0 n0) as [-> | ->]; [assumption|]. apply R_loc; [..|assumption]; intros; apply fst_opt_upd; assumption.
    - destruct (transfer_cases c b1 b2) as [-> |(Hu & es & -> & _ & _ & _ & _ & K)]; [assumption|]. unfold R in *. cbn [bc_set cc_use_branch]. rewrite Hu in *.
      rewrite (bc_get_set c b2 es []). destruct (br_eqb [] b2) eqn:E; [|assumption]. apply br_eqb_eq in E. rewrite <- E in K. rewrite (K eq_refl) in H.
      destruct H as (e & A & _). discriminate.
  Qed.

  (** ** The depth-two solver *)
  Lemma terminal3 b ub s r s' : mls <= vsize (V b) -> Dc (s_c s) -> Dr (s_c s) ->
    ((~ ne (s_c s) b 2 2 /\ ~ ne (s_c s) b 2 3) \/ (proper b /\ ne (s_c s) b 2 2 /\ ne (s_c s) b 2 3)) ->
    solve_terminal T G (V b) b ub 2 3 s = (r, s') ->
    Dc (s_c s') /\ Dr (s_c s') /\ keep (s_c s) (s_c s') /\ s_ar s' 3 = s_ar s 3 /\ (r = init_sol T \/ r = r3 (V b))
    /\ (cache_used (s_c s) = true -> ne (s_c s') b 2 3)
    /\ (b = [] -> ~ ne (s_c s) b 2 3 -> cache_used (s_c s) = true -> R (s_c s') (r3 root)).
  Proof.
    intros Hsz [H0 HJ] HR Hne. unfold solve_terminal. rewrite (term_indep b Hsz). fold (r2 (V b)). fold (r3 (V b)).
    destruct (wits3 b Hsz) as (W1 & W2 & W3 & W4 & W5). destruct (wits3' b Hsz) as (A1 & A2 & L1 & L2 & L3 & _).
    set (one := r_one _) in *. apply wit_nonempty in A1.
    pose proof (wit_nonempty _ _ _ _ _ W1) as N2. pose proof (wit_nonempty _ _ _ _ _ W3) as N3.
    set (c1 := store_term T (s_c s) (V b) b ub one 1 1).
    assert (C1 : D0 c1 /\ Dr c1 /\ cc_use_branch c1 = cc_use_branch (s_c s) /\ cc_use_data c1 = cc_use_data (s_c s) /\ forall b' n, ne c1 b' 2 n <-> ne (s_c s) b' 2 n).
    { unfold c1, store_term. destruct (c_is_optimal _ _ _ _ _); [split; [exact H0|]; split; [exact HR|]; split; [reflexivity|]; split; [reflexivity|]; tauto|]. rewrite A1.
      split; [|split; [|split; [|split]]].
      - apply D0_store; [exact H0|exact A1|]. intros _ db nb B1 B2. split; [lia|]. split; [lia|]. intros _ _. exact L1.
      - apply Dr_store; [exact HR|exact A1|lia].
      - apply store_flags.
      - apply store_flags.
      - intros b' n. split; [apply ne_store_inv; lia|apply ne_store]. }
    destruct C1 as (D1 & R1 & F1 & F1' & E1). clearbody c1.
    set (c3 := store_term T (store_term T c1 (V b) b ub (r2 (V b)) 2 2) (V b) b ub (r3 (V b)) 2 3).
    assert (C3 : D0 c3 /\ Dr c3 /\ cc_use_branch c3 = cc_use_branch c1 /\ cc_use_data c3 = cc_use_data c1
      /\ (forall b', ne c1 b' 2 3 -> ne c3 b' 2 3) /\ (forall b', J c1 b' -> J c3 b') /\ (cache_used c1 = true -> ne c3 b 2 3)
      /\ (b = [] -> ~ ne c1 b 2 3 -> cache_used c1 = true -> R c3 (r3 root))).
    { destruct Hne as [[X1 X2]|(Hp & X1 & X2)]; rewrite <- E1 in X1, X2.
      2:{ unfold c3, store_term. rewrite (ne_optimal c1 b 2 2 D1 Hp X1), (ne_optimal c1 b 2 3 D1 Hp X2). split; [exact D1|]. split; [exact R1|]. split; [reflexivity|]. split; [reflexivity|].
          split; [auto|]. split; [auto|]. split; [auto|]. intros _ Hx. contradiction. }
      assert (O2 : c_is_optimal c1 (V b) b 2 2 = false) by (apply not_true_is_false; intro Hx; apply optimal_ne in Hx; contradiction).
      set (c2 := c_store c1 (V b) b (r2 (V b)) 2 2).
      assert (Y2 : ~ ne c2 b 2 3) by (intro Hx; apply ne_store_inv in Hx; [contradiction|lia]).
      assert (O3 : c_is_optimal c2 (V b) b 2 3 = false) by (apply not_true_is_false; intro Hx; apply optimal_ne in Hx; contradiction).
      assert (E3 : c3 = c_store c2 (V b) b (r3 (V b)) 2 3) by (unfold c3; unfold store_term at 2; rewrite O2, N2; fold c2; unfold store_term; rewrite O3, N3; reflexivity).
      rewrite E3. clear c3 E3.
      assert (D2 : D0 c2).
      { apply D0_store; [exact D1|exact N2|]. intros _ db nb B1 B2. split; [reflexivity|]. split; [lia|]. intros _ _. exact L2. }
      destruct (store_flags c1 (V b) b (r2 (V b)) 2 2) as [G1 G1']. fold c2 in G1, G1'.
      destruct (store_flags c2 (V b) b (r3 (V b)) 2 3) as [G2 G2'].
      assert (Hcb : forall b', cc_use_branch c1 = true -> b' = b -> hasn T (bes (c_store c2 (V b) b (r3 (V b)) 2 3) b') 2 2 /\ hasn T (bes (c_store c2 (V b) b (r3 (V b)) 2 3) b') 2 3).
      { intros b' Hu ->. rewrite store_loc, loc_bes, G1, Hu. replace (br_eqb b b) with true by (symmetry; apply br_eqb_eq; reflexivity). cbn [andb].
        split; [apply store_ne; unfold c2; rewrite store_loc, loc_bes, Hu; replace (br_eqb b b) with true by (symmetry; apply br_eqb_eq; reflexivity); cbn [andb]|];
          apply store_has; try assumption; try lia. }
      assert (Hcd : forall v', cc_use_data c1 = true -> dkey (cc_n c1) v' = dkey (cc_n c1) (V b) -> hasn T (des (c_store c2 (V b) b (r3 (V b)) 2 3) v') 2 2 /\ hasn T (des (c_store c2 (V b) b (r3 (V b)) 2 3) v') 2 3).
      { intros v' Hu Hk. assert (Hn2 : cc_n c2 = cc_n c1) by (destruct D1, D2; congruence). rewrite store_loc, loc_des, G1', Hu, Hn2.
        replace (bits_eqb (dkey (cc_n c1) v') (dkey (cc_n c1) (V b))) with true by (symmetry; apply bits_eqb_eq; exact Hk). cbn [andb].
        split; [apply store_ne; unfold c2; rewrite store_loc, loc_des, Hu; replace (bits_eqb (dkey (cc_n c1) (V b)) (dkey (cc_n c1) (V b))) with true by (symmetry; apply bits_eqb_eq; reflexivity); cbn [andb]|];
          apply store_has; try assumption; try lia. }
      split; [|split; [|split; [|split; [|split; [|split; [|split]]]]]].
      - apply D0_store; [exact D2|exact N3|]. intros _ db nb B1 B2. split; [intros; apply W5; lia|]. split; [reflexivity|]. intros _ _. exact L3.
      - apply Dr_store; [|exact N3|lia]. apply Dr_store; [exact R1|exact N2|lia].
      - congruence.
      - congruence.
      - intros b' Hx. apply ne_store, ne_store, Hx.
      - intros b' Hj. destruct (andb (cc_use_branch c1) (br_eqb b' b)) eqn:Ea.
        { apply andb_true_iff in Ea. destruct Ea as [Ea Ea']. apply br_eqb_eq in Ea'. destruct (Hcb b' Ea Ea'). unfold J, ne. tauto. }
        destruct (andb (cc_use_data c1) (bits_eqb (dkey (cc_n c1) (V b')) (dkey (cc_n c1) (V b)))) eqn:Eb.
        { apply andb_true_iff in Eb. destruct Eb as [Eb Eb']. apply bits_eqb_eq in Eb'. destruct (Hcd (V b') Eb Eb'). unfold J, ne. tauto. }
        assert (Hsame : forall d n, ne (c_store c2 (V b) b (r3 (V b)) 2 3) b' d n <-> ne c1 b' d n).
        { intros d n. unfold ne. assert (Hn2 : cc_n c2 = cc_n c1) by (destruct D1, D2; congruence). rewrite store_loc, loc_bes, loc_des, G1, G1', Hn2, Ea, Eb. unfold c2.
          rewrite store_loc, loc_bes, loc_des, Ea, Eb. tauto. }
        unfold J in *. rewrite !Hsame. exact Hj.
      - intro Hu. unfold cache_used in Hu. apply orb_true_iff in Hu. destruct Hu as [Hu|Hu]; [left; apply Hcb; auto|right; apply Hcd; auto].
      - intros -> _ Hu. rewrite restrict_nil in *. unfold R. rewrite G2, G1.
        rewrite c_optimal_eq in O3. apply orb_false_iff in O3. destruct O3 as [O3 O3'].
        destruct (cc_use_branch c1) eqn:Eu.
        + assert (Hx : bc_get (c_store c2 root [] (r3 root) 2 3) [] = es_store (bes c2 []) (r3 root) (Nat.min 2 3) (num_nodes (r3 root)) 2 3).
          { pose proof (loc_bes c2 root [] (stF (r3 root) 2 3) (stH (r3 root) 2 3) []) as Hl. rewrite <- store_loc in Hl.
            unfold bes at 1 in Hl. rewrite G2, G1 in Hl. exact Hl. }
          rewrite Hx. apply store_fst; try assumption; lia.
        + unfold cache_used in Hu. rewrite Eu in Hu. cbn [orb] in Hu. rewrite store_loc, loc_des, G1', Hu.
          replace (bits_eqb (dkey (cc_n c2) root) (dkey (cc_n c2) root)) with true by (symmetry; apply bits_eqb_eq; reflexivity). cbn [andb].
          apply store_fst; try assumption; lia. }
    clearbody c3. intro H. injection H as <- <-.
    assert (Ha : s_c (update_archive G (set_c s c3) (V b) b 2) = c3) by (unfold update_archive; destruct (c_sim G); reflexivity). rewrite Ha.
    assert (Hb : s_ar (update_archive G (set_c s c3) (V b) b 2) 3 = s_ar s 3) by (unfold update_archive; destruct (c_sim G); reflexivity). rewrite Hb.
    assert (Hcu : cache_used c1 = cache_used (s_c s)) by (unfold cache_used; congruence).
    destruct C3 as (D3 & R3 & F3 & F3' & K3 & J3 & U3 & Q3).
    split; [split; [exact D3|]; intros b' Hp; apply J3; unfold J; rewrite !E1; apply HJ; exact Hp|]. split; [exact R3|].
    split; [split; [congruence|]; split; [congruence|]; intros b' Hx; apply K3, E1, Hx|]. split; [reflexivity|].
    split; [destruct (tk_sdom T _ _); auto|]. rewrite <- Hcu. split; [exact U3|]. intros Eb Hx. apply Q3; [exact Eb|]. rewrite E1. exact Hx.
  Qed.

  Lemma wit_leaf_sol b d ub : mls <= vsize (V b) -> fst (solve_leaf T G (V b) ub) = init_sol T \/ (nd_feat (fst (solve_leaf T G (V b) ub)) = None /\ wit T G (V b) d (fst (solve_leaf T G (V b) ub))).
  Proof.
    intro Hsz. destruct (solve_leaf_spec T G HT root Hworst b ub Hsz) as [(l & Hl & -> & _)|(-> & _)]; [right|auto].
    split; [reflexivity|]. unfold wit. cbn [leaf_node nd_feat nd_lab nd_sol]. exists l. auto.
  Qed.
  Lemma time_c s : s_c (snd (in_time G s)) = s_c s /\ s_ar (snd (in_time G s)) = s_ar s.
  Proof. unfold in_time. destruct (s_on s); auto. Qed.
  Lemma keep_used c c' : keep c c' -> cache_used c' = cache_used c.
  Proof. intros (A & B & _). unfold cache_used. congruence. Qed.

  (** A call with budget (2, 3). *)
  Lemma sub3 fuel b ub s r s' : mls <= vsize (V b) -> (proper b \/ (b = [] /\ s_ar s 2 = [] /\ ~ ne (s_c s) b 2 2 /\ ~ ne (s_c s) b 2 3)) ->
    (forall d ev eb, In (ev, eb) (s_ar s d) -> ev = V eb) -> Dc (s_c s) -> Dr (s_c s) ->
    solve_sub T G (S fuel) (V b) b ub 2 3 s = (r, s') ->
    Dc (s_c s') /\ Dr (s_c s') /\ keep (s_c s) (s_c s') /\ s_ar s' 3 = s_ar s 3
    /\ (r = init_sol T \/ (nd_feat r = None /\ wit T G (V b) 2 r)
        \/ (r = r3 (V b) /\ (cache_used (s_c s) = true -> ne (s_c s') b 2 3) /\ (b = [] -> cache_used (s_c s) = true -> R (s_c s') (r3 root)))).
  Proof.
    intros Hsz Hb Har HD HR. cbn [solve_sub].
    destruct (time_c s) as [Ht Ht']. destruct (in_time G s) as [ok s1]. cbn [snd] in Ht, Ht'. rewrite <- Ht, <- Ht' in *. clear Ht Ht' s.
    destruct ok; cbn [negb]; [|intro H; injection H as <- <-; pose proof (keep_refl (s_c s1)); auto 6].
    unfold reduce_budget. rewrite (gt_sparse T HT). cbn [Nat.eqb orb].
    assert (Hpn : proper b -> b <> []) by (intros Hp ->; unfold proper in Hp; rewrite restrict_nil in Hp; lia).
    destruct (is_empty (c_retrieve T (s_c s1) (V b) b 2 3)) eqn:E0; cbn [negb].
    2:{ assert (Hne : ne (s_c s1) b 2 3) by (apply ne_retrieve; exact E0).
        destruct Hb as [Hb|(_ & _ & _ & Hb)]; [|contradiction]. intro H. injection H as <- <-. split; [exact HD|]. split; [exact HR|]. split; [apply keep_refl|]. split; [reflexivity|].
        right. right. destruct (cached_P b 2 3 (s_c s1) (proj1 HD) Hb Hne) as (_ & Hx & _). split; [apply Hx; reflexivity|]. split; [auto|]. intros E. destruct (Hpn Hb E). }
    assert (Hne : ~ ne (s_c s1) b 2 3) by (rewrite ne_retrieve; congruence).
    assert (Hcont : forall s2, Dc (s_c s2) -> Dr (s_c s2) -> keep (s_c s1) (s_c s2) -> s_ar s2 = s_ar s1 -> (proper b \/ s2 = s1) ->
      (if c_term G && (2 <=? 2) then solve_terminal T G (V b) b ub 2 3 s2 else general_case T G (solve_sub T G fuel) (V b) b ub 2 3 s2) = (r, s') ->
      Dc (s_c s') /\ Dr (s_c s') /\ keep (s_c s1) (s_c s') /\ s_ar s' 3 = s_ar s1 3
      /\ (r = init_sol T \/ (nd_feat r = None /\ wit T G (V b) 2 r)
        \/ (r = r3 (V b) /\ (cache_used (s_c s1) = true -> ne (s_c s') b 2 3) /\ (b = [] -> cache_used (s_c s1) = true -> R (s_c s') (r3 root))))).
    { intros s2 D2 R2 K2 A2 Hb2. rewrite Hct. change (2 <=? 2) with true. cbn [andb]. intro H.
      assert (Hx : (~ ne (s_c s2) b 2 2 /\ ~ ne (s_c s2) b 2 3) \/ (proper b /\ ne (s_c s2) b 2 2 /\ ne (s_c s2) b 2 3)).
      { assert (Hd : ne (s_c s2) b 2 3 \/ ~ ne (s_c s2) b 2 3) by (destruct (is_empty (c_retrieve T (s_c s2) (V b) b 2 3)) eqn:Ez; [right; rewrite ne_retrieve; congruence|left; apply ne_retrieve; exact Ez]).
        destruct Hb as [Hb|(_ & _ & Hb)].
        - pose proof (proj2 D2 b Hb) as Hj. unfold J in Hj. destruct Hd; tauto.
        - destruct Hb2 as [Hb2| ->]; [|left; exact Hb]. pose proof (proj2 D2 b Hb2) as Hj. unfold J in Hj. destruct Hd; tauto. }
      destruct (terminal3 _ _ _ _ _ Hsz D2 R2 Hx H) as (B1 & B2 & B3 & B4 & B5 & B6 & B7). split; [exact B1|]. split; [exact B2|]. split; [eapply keep_trans; eassumption|].
      split; [rewrite B4, A2; reflexivity|].
      destruct B5 as [B5|B5]; [auto|]. right. right. split; [exact B5|]. rewrite <- (keep_used _ _ K2). split; [exact B6|].
      intros Eb. apply B7; [exact Eb|]. destruct Hb2 as [Hb2| ->]; [destruct (Hpn Hb2 Eb)|exact Hne]. }
    destruct (Model_Solver.c_lb G).
    2:{ intro H. apply (Hcont s1 HD HR (keep_refl _) eq_refl (or_intror eq_refl) H). }
    assert (Hsim : let s2 := snd (update_sim T G s1 (V b) b 2 3) in (proper b \/ update_sim T G s1 (V b) b 2 3 = (false, s1)) /\ Dc (s_c s2) /\ Dr (s_c s2) /\ keep (s_c s1) (s_c s2) /\ s_ar s2 = s_ar s1).
    { destruct Hb as [Hb|(Hb1 & Hb2 & _)].
      - cbn zeta. split; [left; exact Hb|]. apply update3; assumption.
      - rewrite (update0 (V b) b 2 3 s1 Hb2). cbn [snd]. split; [right; reflexivity|]. split; [exact HD|]. split; [exact HR|]. split; [apply keep_refl|reflexivity]. }
    destruct (update_sim T G s1 (V b) b 2 3) as [upd s2]. cbn [snd] in Hsim. destruct Hsim as (P2' & D2 & R2 & K2 & A2).
    destruct (upd && negb (is_empty (c_retrieve T (s_c s2) (V b) b 2 3))) eqn:Eu.
    { apply andb_true_iff in Eu. destruct Eu as [Eu Ee]. apply negb_true_iff in Ee. apply ne_retrieve in Ee.
      destruct P2' as [Hp|P2']; [|injection P2' as -> _; discriminate].
      intro H. injection H as <- <-. split; [exact D2|]. split; [exact R2|]. split; [exact K2|]. split; [rewrite A2; reflexivity|].
      right. right. destruct (cached_P b 2 3 (s_c s2) (proj1 D2) Hp Ee) as (_ & Hx & _). split; [apply Hx; reflexivity|]. split; [auto|]. intros E. destruct (Hpn Hp E). }
    destruct (c_ub G && _); [intro H; injection H as <- <-; rewrite A2; auto 6|].
    destruct (tk_eq T _ _).
    { intro H. injection H as <- <-. split; [exact D2|]. split; [exact R2|]. split; [exact K2|]. split; [rewrite A2; reflexivity|].
      destruct (wit_leaf_sol b 2 (init_sol T) Hsz) as [H|H]; auto. }
    apply Hcont; try assumption. destruct P2' as [Hp|P2']; [auto|injection P2' as _ ->; auto].
  Qed.

  (** ** The call with budget (3, 7) *)
  Notation SI := (SInv T G root N false).
  Notation KK := (K T root N).
  Notation good := (good T G root N false).
  Lemma ff (A : Prop) : false = true -> A.
  Proof. discriminate. Qed.

  Definition okc (c : caches) (b : branch) (a : nat) (z : Z) : Prop :=
    mls <= vsize (V b) < vsize root /\ a <= 3 /\ (cache_used c = true -> 1 <= a -> ne c b 2 3)
    /\ (a = 2 -> z = nd_sol (r2 (V b))) /\ exists t, alw T G 2 a (V b) t /\ cost (V b) t = z.
  Definition okn (c : caches) (x : node) : Prop :=
    exists f zl zr, nd_feat x = Some f /\ nd_sol x = (zl + zr)%Z /\ okc c (br_left [] f) (nd_l x) zl /\ okc c (br_right [] f) (nd_r x) zr.
  Definition cls (c : caches) (x : node) : Prop := num_nodes x <= 2 \/ okn c x.
  Lemma okc_keep c0 c b a z : keep c0 c -> okc c0 b a z -> okc c b a z.
  Proof.
    intros Hk (H1 & H2 & H3 & H4). split; [exact H1|]. split; [exact H2|]. split; [|exact H4]. rewrite (keep_used _ _ Hk). intros Hu Ha. apply Hk. auto.
  Qed.
  Lemma cls_keep c0 c x : keep c0 c -> cls c0 x -> cls c x.
  Proof.
    intros H [Hx|(f & zl & zr & H1 & H2 & H3 & H4)]; [left; exact Hx|right].
    exists f, zl, zr. split; [exact H1|]. split; [exact H2|]. split; eapply okc_keep; eassumption.
  Qed.

  Lemma sub_okc fuel b ub s r s' : 2 <= fuel -> mls <= vsize (V b) < vsize root -> SI s -> Dc (s_c s) -> Dr (s_c s) ->
    solve_sub T G (S fuel) (V b) b ub 2 3 s = (r, s') ->
    SI s' /\ Dc (s_c s') /\ Dr (s_c s') /\ keep (s_c s) (s_c s') /\ (is_empty r = false -> okc (s_c s') b (num_nodes r) (nd_sol r)).
  Proof.
    intros Hf [Hsz Hlt] HS HD HR He.
    assert (Har : forall d ev eb, In (ev, eb) (s_ar s d) -> ev = V eb) by (intros d ev eb Hin; destruct HS as [_ HA]; apply (HA d ev eb Hin)).
    destruct (sub3 fuel b ub s r s' Hsz (or_introl Hlt) Har HD HR He) as (A1 & A2 & A3 & _ & A4).
    destruct (solve_sub_contract T G HT root N false Hids Hsorted Hwf Hred Hmls Horder Hworst Hnl (ff _) (ff _) (S fuel) b ub 2 3 s r s' ltac:(lia) Hsz ltac:(cbn; lia) (ff _) HS He (ff _)) as [B1 _].
    split; [exact B1|]. split; [exact A1|]. split; [exact A2|]. split; [exact A3|].
    intro Hne. destruct A4 as [-> | [[A4 A5]|(-> & A4 & _)]]; [discriminate| |].
    - assert (Hn : num_nodes r = 0) by (unfold num_nodes; rewrite A4; reflexivity).
      rewrite Hn. split; [auto|]. split; [lia|]. split; [lia|]. split; [lia|].
      apply wit_tree in A5. rewrite Hn in A5. exact A5.
    - destruct (wits3 b Hsz) as (_ & _ & W3 & W4 & W5). rewrite <- (keep_used _ _ A3) in A4.
      split; [auto|]. split; [exact W4|]. split; [auto|]. split; [intro Ha; rewrite W5 by lia; reflexivity|]. apply wit_tree in W3. exact W3.
  Qed.

  Definition LI3 (L : loop) : Prop := SI (l_st L) /\ Dc (s_c (l_st L)) /\ Dr (s_c (l_st L)) /\ cls (s_c (l_st L)) (l_sols L).

  Lemma time_SI s : SI s -> SI (snd (in_time G s)).
  Proof. intro H. destruct (time_c s) as [A B]. eapply SInv_c; eassumption. Qed.

  Lemma size3 fuel f (sw : bool) L L' stop :
    let lb := if sw then br_right [] f else br_left [] f in let rb := if sw then br_left [] f else br_right [] f in
    2 <= fuel -> mls <= vsize (V lb) < vsize root -> mls <= vsize (V rb) < vsize root -> LI3 L ->
    size_step T G (solve_sub T G (S fuel)) 3 7 f 0 sw (V lb) lb (V rb) rb L 3 = (L', stop) -> LI3 L' /\ keep (s_c (l_st L)) (s_c (l_st L')).
  Proof.
    intros lb rb Hf Hl Hr (H0 & H1 & H2 & H3). unfold size_step.
    change (7 - 3 - 1) with 3. change (Nat.min (3 - 1) 3) with 2.
    destruct (lr_lb T G (l_st L) f 0 (V lb) lb 2 3 (V rb) rb 2 3) as [[lbd llb] rlb].
    pose proof (keep_refl (s_c (l_st L))) as K0.
    destruct (c_ub G && _); [intro H; injection H as <- <-; exact (conj (conj H0 (conj H1 (conj H2 H3))) K0)|].
    destruct (tk_eq T _ _); [intro H; injection H as <- <-; exact (conj (conj H0 (conj H1 (conj H2 H3))) K0)|].
    destruct (solve_sub T G (S fuel) (V lb) lb _ 2 3 (l_st L)) as [lsol s1] eqn:E1.
    destruct (sub_okc _ _ _ _ _ _ Hf Hl H0 H1 H2 E1) as (A0 & A1 & A2 & A3 & A4).
    apply time_SI in A0. destruct (time_c s1) as [T1 _]. destruct (in_time G s1) as [ok1 s1']. cbn [snd] in T1, A0. rewrite <- T1 in *. clear T1 s1 E1.
    pose proof (cls_keep _ _ _ A3 H3) as C1.
    destruct ok1; cbn [negb]; [|intro H; injection H as <- <-; exact (conj (conj A0 (conj A1 (conj A2 C1))) A3)].
    destruct (is_empty lsol).
    { destruct (lr_lb T G s1' f 0 (V lb) lb 2 3 (V rb) rb 2 3) as [[? ?] ?]. intro H. injection H as <- <-. exact (conj (conj A0 (conj A1 (conj A2 C1))) A3). }
    specialize (A4 eq_refl).
    destruct (solve_sub T G (S fuel) (V rb) rb _ 2 3 s1') as [rsol s2] eqn:E2.
    destruct (sub_okc _ _ _ _ _ _ Hf Hr A0 A1 A2 E2) as (B0 & B1 & B2 & B3 & B4).
    apply time_SI in B0. destruct (time_c s2) as [T2 _]. destruct (in_time G s2) as [ok2 s2']. cbn [snd] in T2, B0. rewrite <- T2 in *. clear T2 s2 E2.
    pose proof (cls_keep _ _ _ B3 C1) as C2. pose proof (okc_keep _ _ _ _ _ B3 A4) as A5. pose proof (keep_trans _ _ _ A3 B3) as K2.
    destruct ok2; cbn [negb]; [|intro H; injection H as <- <-; exact (conj (conj B0 (conj B1 (conj B2 C2))) K2)].
    destruct (is_empty rsol).
    { destruct (lr_lb T G s2' f 0 (V lb) lb 2 3 (V rb) rb 2 3) as [[? ?] ?]. intro H. injection H as <- <-. exact (conj (conj B0 (conj B1 (conj B2 C2))) K2). }
    specialize (B4 eq_refl).
    set (new := if sw then combine_sols T f rsol lsol 0 else combine_sols T f lsol rsol 0).
    assert (Hnew : cls (s_c s2') new).
    { right. exists f. unfold new. destruct sw; rewrite (combine0 T _ _ _ HT); cbn [branch_node nd_feat nd_sol nd_l nd_r].
      - exists (nd_sol rsol), (nd_sol lsol). auto.
      - exists (nd_sol lsol), (nd_sol rsol). auto. }
    destruct (c_ub G && _); intro H; injection H as <- <-; [exact (conj (conj B0 (conj B1 (conj B2 C2))) K2)|].
    split; [|exact K2]. split; [exact B0|]. split; [exact B1|]. split; [exact B2|]. cbn [l_sols l_st]. destruct (tk_sdom T _ _); assumption.
  Qed.

  Lemma feature3 fuel f L L' : 2 <= fuel -> LI3 L -> feature_step T G (solve_sub T G (S fuel)) root [] 3 7 f L = Some L' -> LI3 L' /\ keep (s_c (l_st L)) (s_c (l_st L')).
  Proof.
    intros Hf HL. unfold feature_step. pose proof (keep_refl (s_c (l_st L))) as K0. destruct (_ || _ || _); [intro H; injection H as <-; auto|].
    rewrite (gt_sparse T HT). cbn [andb]. unfold get_bc. rewrite (gt_bc T HT).
    destruct (negb _ || negb _) eqn:Em; [intro H; injection H as <-; auto|].
    apply orb_false_iff in Em. rewrite !negb_false_iff in Em. unfold sat_mls in Em. rewrite !Nat.mul_1_r, !Nat.leb_le in Em.
    pose proof (vsize_split f root) as Hs.
    change (seq (min_size 3 7) (S (max_size 3 7) - min_size 3 7)) with [3]. cbn [size_loop].
    assert (Hx : forall (sw : bool) L1 st,
      size_step T G (solve_sub T G (S fuel)) 3 7 f 0 sw (if sw then split_right f root else split_left f root) (if sw then br_right [] f else br_left [] f)
        (if sw then split_left f root else split_right f root) (if sw then br_left [] f else br_right [] f) L 3 = (L1, st) -> LI3 L1 /\ keep (s_c (l_st L)) (s_c (l_st L1))).
    { intros sw L1 st. assert (EL : split_left f root = V (br_left [] f)) by (rewrite <- (V_left root), restrict_nil; reflexivity).
      assert (ER : split_right f root = V (br_right [] f)) by (rewrite <- (V_right root), restrict_nil; reflexivity). rewrite EL, ER in *.
      assert (Hlr : mls <= vsize (V (br_left [] f)) < vsize root /\ mls <= vsize (V (br_right [] f)) < vsize root) by lia.
      destruct Hlr as [Hl Hr]. intro H. destruct sw.
      - exact (size3 fuel f true L L1 st Hf Hr Hl HL H).
      - exact (size3 fuel f false L L1 st Hf Hl Hr HL H). }
    destruct (_ <? _).
    - specialize (Hx true). cbn iota in Hx. destruct (size_step _ _ _ _ _ _ _ _ _ _ _ _ _ _) as [L1 st]. specialize (Hx L1 st eq_refl).
      destruct st; intro H; injection H as <-; exact Hx.
    - specialize (Hx false). cbn iota in Hx. destruct (size_step _ _ _ _ _ _ _ _ _ _ _ _ _ _) as [L1 st]. specialize (Hx L1 st eq_refl).
      destruct st; intro H; injection H as <-; exact Hx.
  Qed.
  Lemma features3 fuel blb fs : 2 <= fuel -> forall L, LI3 L -> LI3 (feature_loop T G (solve_sub T G (S fuel)) root [] 3 7 blb L fs)
    /\ keep (s_c (l_st L)) (s_c (l_st (feature_loop T G (solve_sub T G (S fuel)) root [] 3 7 blb L fs))).
  Proof.
    intro Hf. induction fs as [|f fs IH]; intros L HL; cbn [feature_loop]; [split; [exact HL|apply keep_refl]|].
    destruct (time_c (l_st L)) as [T1 _]. pose proof (time_SI (l_st L) (proj1 HL)) as T2. destruct (in_time G (l_st L)) as [ok s1]. cbn [snd] in T1, T2.
    assert (HL' : LI3 (with_st L s1)) by (unfold LI3 in *; cbn [with_st l_st l_sols]; rewrite T1; split; [exact T2|apply HL]).
    assert (K1 : keep (s_c (l_st L)) (s_c (l_st (with_st L s1)))) by (cbn [with_st l_st]; rewrite T1; apply keep_refl).
    destruct ok; cbn [negb]; [|auto].
    destruct (c_lb G && _); [auto|]. destruct (c_lb G && _ && _); [auto|].
    destruct (feature_step _ _ _ _ _ _ _ _ _) as [L'|] eqn:Ef; [|auto].
    destruct (feature3 _ _ _ _ Hf HL' Ef) as [A1 A2]. destruct (IH L' A1) as [B1 B2]. split; [exact B1|]. eapply keep_trans; [exact K1|]. eapply keep_trans; eassumption.
  Qed.

  Lemma general3 fuel ub s r s' : 2 <= fuel -> mls <= vsize root -> SI s -> Dc (s_c s) -> Dr (s_c s) ->
    general_case T G (solve_sub T G (S fuel)) root [] ub 3 7 s = (r, s') -> Dc (s_c s') /\ keep (s_c s) (s_c s') /\ cls (s_c s') r.
  Proof.
    intros Hf Hsz HS HD HR. unfold general_case.
    assert (Hl : num_nodes (fst (solve_leaf T G root ub)) <= 2).
    { pose proof (wit_leaf_sol [] 2 ub) as H. rewrite restrict_nil in H. destruct (H Hsz) as [-> | [H1 _]]; [cbn; lia|]. unfold num_nodes. rewrite H1. lia. }
    destruct (solve_leaf T G root ub) as [sols u]. cbn [fst] in Hl.
    destruct (negb (sat_mls G root 2)); [intro H; injection H as <- <-; split; [exact HD|]; split; [apply keep_refl|left; exact Hl]|].
    match goal with |- context [let '(a, c) := ?x in _] => assert (Hi : num_nodes (fst x) <= 2) end.
    { destruct (lower_cached (s_c s) root [] 7 (3 - 1)) as [[ld ln]|] eqn:El; [|exact Hl].
      assert (Hln : ln <= 2).
      { cbn [Nat.sub lower_cached] in El. destruct (c_is_optimal _ _ _ 2 _); [injection El as <- <-; cbn; lia|].
        destruct (c_is_optimal _ _ _ 1 _); [injection El as <- <-; cbn; lia|discriminate]. }
      assert (Hc : num_nodes (c_retrieve T (s_c s) root [] ld ln) <= 2).
      { assert (Hv : forall es, Dv es -> num_nodes (es_retrieve T es ld ln) <= 2).
        { intros es Hd. unfold Dv in Hd. rewrite Forall_forall in Hd. destruct (es_retrieve_find T (fun _ => True) es ld ln) as [-> |(e & Y1 & Y2 & Y3 & Y4 & ->)]; [cbn; lia|].
          destruct (Hd e Y1 Y4). lia. }
        rewrite c_retrieve_eq. destruct HR. destruct (is_empty _); apply Hv; assumption. }
      destruct (c_ub G && _); [exact Hl|]. cbn [fst]. destruct (add_sol_either sols (c_retrieve T (s_c s) root [] ld ln)) as [-> | ->]; assumption. }
    match goal with |- context [let '(a, c) := ?x in _] => destruct x as [sols' u'] end. cbn [fst] in Hi.
    set (blb := compute_lb T G s root [] 3 7).
    destruct (features3 fuel blb (c_order G root) Hf (Loop u' sols' (init_sol T) s) (conj HS (conj HD (conj HR (or_introl Hi))))) as [HL HK].
    cbn [l_st] in HK. set (L := feature_loop _ _ _ _ _ _ _ _ _ _) in *. clearbody L. intro H. injection H as <- <-.
    assert (Ha : forall st, s_c (update_archive G st root [] 3) = s_c st) by (intro st; unfold update_archive; destruct (c_sim G); reflexivity).
    rewrite Ha. cbn [set_c s_c]. destruct HL as (_ & B1 & B2 & B3).
    destruct (is_empty (l_sols L)) eqn:Ee; cbn [negb].
    - match goal with |- context [c_upd_lb T _ root [] ?z 3 7] => set (inf := z) end.
      pose proof (keep_upd (s_c (l_st L)) [] inf 3 7) as K1. pose proof (Dc_upd (s_c (l_st L)) [] inf 3 7 B1) as D1. rewrite restrict_nil in K1, D1.
      split; [exact D1|]. split; [eapply keep_trans; eassumption|]. eapply cls_keep; eassumption.
    - pose proof (keep_store (s_c (l_st L)) [] (l_sols L) 3 7) as K1. rewrite restrict_nil in K1.
      split; [apply Dc_store_root; assumption|]. split; [eapply keep_trans; eassumption|]. eapply cls_keep; eassumption.
  Qed.

  Lemma sub7 fuel ub s r s' : 2 <= fuel -> mls <= vsize root -> s_ar s 3 = [] -> SI s -> Dc (s_c s) -> Dr (s_c s) ->
    solve_sub T G (S (S fuel)) root [] ub 3 7 s = (r, s') -> Dc (s_c s') /\ keep (s_c s) (s_c s') /\ cls (s_c s') r.
  Proof.
    intros Hf Hsz Har HS HD HR.
    change (solve_sub T G (S (S fuel))) with (fun v b ub d n s => solve_sub T G (S (S fuel)) v b ub d n s). cbn beta.
    remember (S fuel) as fu eqn:Efu. cbn [solve_sub]. subst fu.
    apply time_SI in HS. destruct (time_c s) as [Ht Ht']. destruct (in_time G s) as [ok s1]. cbn [snd] in Ht, Ht', HS. rewrite <- Ht in *. rewrite <- Ht' in Har. clear Ht Ht' s.
    pose proof (keep_refl (s_c s1)) as K1.
    destruct ok; cbn [negb]; [|intro H; injection H as <- <-; split; [exact HD|]; split; [exact K1|left; cbn; lia]].
    unfold reduce_budget. rewrite (gt_sparse T HT). cbn [Nat.eqb orb].
    assert (Hno : is_empty (c_retrieve T (s_c s1) root [] 3 7) = true).
    { assert (Hv : forall es, Dv es -> is_empty (es_retrieve T es 3 7) = true).
      { intros es Hd. unfold Dv in Hd. rewrite Forall_forall in Hd. destruct (es_retrieve_find T (fun _ => True) es 3 7) as [-> |(e & Y1 & Y2 & Y3 & Y4 & ->)]; [reflexivity|].
        destruct (Hd e Y1 Y4). lia. }
      rewrite c_retrieve_eq. destruct HR as [HR1 HR2]. destruct (is_empty (es_retrieve T (bes (s_c s1) []) 3 7)) eqn:E; [apply Hv; exact HR2|].
      rewrite (Hv _ HR1) in E. discriminate. }
    rewrite Hno. cbn [negb].
    change (3 <=? 2) with false. rewrite andb_false_r.
    destruct (Model_Solver.c_lb G); [|apply general3; assumption].
    rewrite (update0 root [] 3 7 s1 Har), Hno. cbn [negb andb].
    destruct (c_ub G && _); [intro H; injection H as <- <-; split; [exact HD|]; split; [exact K1|left; cbn; lia]|].
    destruct (tk_eq T _ _); [|apply general3; assumption].
    intro H. injection H as <- <-. split; [exact HD|]. split; [exact K1|]. left.
    pose proof (wit_leaf_sol [] 2 (init_sol T)) as H. rewrite restrict_nil in H. destruct (H Hsz) as [-> | [H1 _]]; [cbn; lia|]. unfold num_nodes. rewrite H1. lia.
  Qed.

  (** ** The two search depths *)
  Definition out (c : caches) (x : node) : Prop := cls c x \/ (cache_used c = true /\ R c x).
  Definition fresh (ubr uda lbf : bool) : caches := Caches ubr uda lbf N [] [].
  Lemma fresh_bes ubr uda lbf b : bes (fresh ubr uda lbf) b = [].
  Proof. unfold bes. destruct ubr; reflexivity. Qed.
  Lemma fresh_des ubr uda lbf v : des (fresh ubr uda lbf) v = [].
  Proof. unfold des. destruct uda; reflexivity. Qed.
  Lemma fresh_ne ubr uda lbf b d n : ~ ne (fresh ubr uda lbf) b d n.
  Proof. unfold ne. rewrite fresh_bes, fresh_des. unfold hasn. cbn. intros [H|H]; discriminate. Qed.
  Lemma Dc_fresh ubr uda lbf : Dc (fresh ubr uda lbf) /\ Dr (fresh ubr uda lbf).
  Proof.
    assert (Hg : forall v, gv v []) by (intro v; split; [constructor|constructor]).
    split; [|split; rewrite ?fresh_bes, ?fresh_des; constructor]. split.
    - split; [reflexivity|]. intros b _. rewrite fresh_bes, fresh_des. auto.
    - intros b _. pose proof (fresh_ne ubr uda lbf b 2 2). pose proof (fresh_ne ubr uda lbf b 2 3). unfold J. tauto.
  Qed.
  (** Without caches a solution of the depth-two solver can be taken apart. *)
  Lemma wit2_okn c x : cache_used c = false -> wit T G root 2 x -> 3 <= num_nodes x -> okn c x.
  Proof.
    intros Hu Hw Hn. unfold wit in Hw. unfold num_nodes in Hn. destruct (nd_feat x) as [f|] eqn:Ef; [|lia].
    destruct Hw as (_ & _ & B1 & B2 & tl & tr & C1 & C2 & C3 & C4 & C5). cbn in B1, B2, C1, C2.
    exists f, (cost (split_left f root) tl), (cost (split_right f root) tr). split; [exact Ef|]. split; [exact C3|].
    pose proof (allowed_size _ _ _ _ _ _ C1) as S1. pose proof (allowed_size _ _ _ _ _ _ C2) as S2. pose proof (vsize_split f root) as Hs.
    assert (EL : split_left f root = V (br_left [] f)) by (rewrite <- (V_left root), restrict_nil; reflexivity).
    assert (ER : split_right f root = V (br_right [] f)) by (rewrite <- (V_right root), restrict_nil; reflexivity). rewrite EL, ER in *.
    assert (Hx : forall b a t, alw T G 1 a (V b) t -> alw T G 2 a (V b) t) by (intros b a t (X1 & X2 & X3 & X4); repeat split; try assumption; lia).
    split; (split; [lia|]; split; [lia|]; split; [congruence|]; split; [lia|]; eexists; split; [apply Hx; eassumption|reflexivity]).
  Qed.

  Lemma outer3 (P : params) ubr uda lbf res gub s : mls <= vsize root -> p_nodes P = 7 -> s_c s = fresh ubr uda lbf -> SI s -> (forall d, s_ar s d = []) -> num_nodes res <= 2 ->
    let Q := outer_loop (depth_step T G P root) (Outer res gub s (p_depth P)) [2; 3] in
    Dc (s_c (o_st Q)) /\ out (s_c (o_st Q)) (o_res Q).
  Proof.
    intros Hsz Hn Hc HS Har Hres. cbn [outer_loop]. destruct (Dc_fresh ubr uda lbf) as [HD HR].
    destruct (depth_step T G P root (Outer res gub s (p_depth P)) 2) as [Q1 ok1] eqn:E1.
    assert (H1 : SI (o_st Q1) /\ s_ar (o_st Q1) 3 = [] /\ Dc (s_c (o_st Q1)) /\ Dr (s_c (o_st Q1)) /\ out (s_c (o_st Q1)) (o_res Q1)).
    { unfold depth_step in E1. rewrite Hn in E1. change (Nat.min 7 (2 ^ 2 - 1)) with 3 in E1. cbn [o_ub o_st o_res] in E1.
      destruct (solve_sub T G 3 root [] gub 2 3 s) as [sol s1] eqn:Es.
      rewrite <- (restrict_nil root) in Es at 1.
      assert (Hsz' : mls <= vsize (V [])) by (rewrite restrict_nil; exact Hsz).
      destruct (sub3 2 [] gub s sol s1 Hsz') as (A1 & A2 & A3 & A4 & A5); try assumption; try (rewrite Hc; assumption).
      { right. split; [reflexivity|]. split; [apply Har|]. rewrite Hc. split; apply fresh_ne. }
      { intros d ev eb Hin. rewrite Har in Hin. destruct Hin. }
      destruct (solve_sub_contract T G HT root N false Hids Hsorted Hwf Hred Hmls Horder Hworst Hnl (ff _) (ff _) 3 [] gub 2 3 s sol s1 ltac:(lia) Hsz' ltac:(cbn; lia) (ff _) HS Es (ff _)) as [B1 _].
      assert (B1' : SI (set_mdf s1 2)) by (eapply SInv_c; [..|exact B1]; reflexivity).
      apply time_SI in B1'. destruct (time_c (set_mdf s1 2)) as [Tc Ta]. destruct (in_time G (set_mdf s1 2)) as [ok s2]. cbn [snd set_mdf s_c s_ar] in Tc, Ta, B1'.
      injection E1 as <- <-. cbn [o_st o_res]. rewrite Tc, Ta. split; [exact B1'|]. split; [rewrite A4; apply Har|]. split; [exact A1|]. split; [exact A2|].
      destruct (add_sol_either res sol) as [-> | ->]; [left; left; exact Hres|].
      destruct A5 as [-> | [[A5 _]|(-> & _ & A5)]]; [left; left; cbn; lia|left; left; unfold num_nodes; rewrite A5; lia|].
      rewrite restrict_nil in *. destruct (cache_used (s_c s1)) eqn:Eu.
      - right. split; [exact Eu|]. apply A5; [reflexivity|]. rewrite <- (keep_used _ _ A3). exact Eu.
      - left. pose proof (wits3 []) as Wt. rewrite restrict_nil in Wt. destruct (Wt Hsz) as (_ & _ & W3 & _). destruct (le_lt_dec (num_nodes (r3 root)) 2) as [Hle|Hgt]; [left; exact Hle|right].
        apply wit2_okn; [exact Eu|exact W3|lia]. }
    destruct H1 as (S1 & Ar1 & D1 & R1 & O1). destruct ok1; [|auto].
    destruct (depth_step T G P root Q1 3) as [Q2 ok2] eqn:E2.
    assert (H2 : Dc (s_c (o_st Q2)) /\ out (s_c (o_st Q2)) (o_res Q2)).
    { unfold depth_step in E2. rewrite Hn in E2. change (Nat.min 7 (2 ^ 3 - 1)) with 7 in E2.
      pose proof (R_sub (o_res Q1) 4 root [] (o_ub Q1) 3 7 (o_st Q1)) as HRs.
      destruct (solve_sub T G 4 root [] (o_ub Q1) 3 7 (o_st Q1)) as [sol s1] eqn:Es. cbn [snd] in HRs.
      destruct (sub7 2 (o_ub Q1) (o_st Q1) sol s1 ltac:(lia) Hsz Ar1 S1 D1 R1 Es) as (A1 & A2 & A3).
      destruct (time_c (set_mdf s1 3)) as [Tc _]. destruct (in_time G (set_mdf s1 3)) as [ok s2]. cbn [snd set_mdf s_c] in Tc.
      injection E2 as <- <-. cbn [o_st o_res]. rewrite Tc. split; [exact A1|].
      destruct (add_sol_either (o_res Q1) sol) as [-> | ->]; [|left; exact A3].
      destruct O1 as [O1|[O1 O2]]; [left; eapply cls_keep; eassumption|right]. split; [rewrite (keep_used _ _ A2); exact O1|auto]. }
    destruct ok2; exact H2.
  Qed.

  (** ** Rebuilding the tree *)
  Hypothesis Hterm : mls = 1.
  Hypothesis Hmay : forall f, f < nf -> tk_may T f = true.

  Lemma leaf0 b d : mls <= vsize (V b) -> let x := fst (solve_leaf T G (V b) (init_sol T)) in
    is_empty x = false /\ wit T G (V b) d x /\ forall t, alw T G d 0 (V b) t -> (nd_sol x <= cost (V b) t)%Z.
  Proof.
    intro Hsz. cbn zeta. destruct (solve_leaf_spec T G HT root Hworst b (init_sol T) Hsz) as [(l & Hl & -> & Hmin & _)|(_ & _ & Hno)].
    - split; [reflexivity|]. split; [unfold wit; cbn [leaf_node nd_feat nd_lab nd_sol]; exists l; auto|].
      intros t (A1 & _ & _ & A4). destruct t as [l'|f tl tr]; [|cbn in A4; lia]. cbn [leaf_node nd_sol]. apply Hmin. exact A1.
    - exfalso. destruct (Hno 0) as [_ H]; [rewrite (V_nl root); lia|]. pose proof (cost_lt_worst T HT root Hworst b (Leaf 0)). cbn [init_sol value_node nd_sol] in H. lia.
  Qed.
  Lemma sub00 fuel v b s : s_on s = false -> solve_sub T G (S fuel) v b (init_sol T) 0 0 s = (fst (solve_leaf T G v (init_sol T)), s).
  Proof.
    intro H. cbn [solve_sub]. unfold in_time. rewrite H. cbn [negb]. unfold reduce_budget. rewrite (gt_sparse T HT). reflexivity.
  Qed.
  Lemma cached_wit b d n s : SI s -> ne (s_c s) b d n -> wit T G (V b) d (c_retrieve T (s_c s) (V b) b d n).
  Proof.
    intros [HI _] Hn. apply ne_retrieve in Hn. destruct (retrieve_entry T N root _ (s_c s) b d n HI) as [Hx|(_ & e & [He _] & Hd & Hnn & Ho & Hr)]; [rewrite Hx in Hn; discriminate|].
    rewrite Hr. destruct (He Ho) as (W1 & _). rewrite Hd in W1. exact W1.
  Qed.

  Lemma child_low b d n s t : s_on s = false -> SI s -> D0 (s_c s) -> proper b -> 1 <= d <= 2 -> d <= n <= 2 ^ d - 1 -> alw T G (d - 1) 0 (V b) t ->
    exists sol cd k, child_sol T G (V b) b d n 0 s = ((sol, cd, k), s) /\ cd <= d - 1 /\ cd <= k /\ wit T G (V b) cd sol /\ (nd_sol sol <= cost (V b) t)%Z.
  Proof.
    intros Hon HS HD Hp Hd Hn Ht. assert (Hsz : mls <= vsize (V b)) by (eapply allowed_size; exact Ht).
    destruct (leaf0 b 0 Hsz) as (L1 & L2 & L3).
    assert (Ht0 : alw T G 0 0 (V b) t) by (destruct Ht as (A1 & A2 & A3 & A4); pose proof (depth_le_nodes t); repeat split; try assumption; lia).
    specialize (L3 t Ht0). set (x := fst (solve_leaf T G (V b) (init_sol T))) in *.
    assert (Hfall : forall k, exists sol cd k', (let cd := Nat.min (d - 1) 0 in let '(sol, s1) := solve_sub T G (S cd) (V b) b (init_sol T) cd 0 s in
      if is_empty sol then let '(sol, s1) := solve_sub T G (S cd) (V b) b (init_sol T) cd 0 s1 in ((sol, cd, k), s1) else ((sol, cd, k), s1)) = ((sol, cd, k'), s)
      /\ cd <= d - 1 /\ cd <= k' /\ wit T G (V b) cd sol /\ (nd_sol sol <= cost (V b) t)%Z).
    { intro k. exists x, 0, k. rewrite Nat.min_0_r. cbn zeta. rewrite sub00 by exact Hon. fold x. rewrite L1. split; [reflexivity|]. split; [lia|]. split; [lia|]. split; assumption. }
    unfold child_sol. destruct (cache_used (s_c s)) eqn:Eu; [|apply (Hfall 0)].
    assert (Hc : (Nat.max 0 (min_size d n) = 0 /\ exists r, seq 0 (S (max_size d n) - 0) = 0 :: r) \/ (d = 2 /\ n = 3)).
    { assert (d = 1 /\ n = 1 \/ d = 2 /\ n = 2 \/ d = 2 /\ n = 3) as [[-> ->]|[[-> ->]|[-> ->]]].
      { destruct (Nat.eq_dec d 1) as [-> |Hd1]; [cbn in Hn; lia|]. assert (d = 2) by lia. subst d. cbn in Hn. lia. }
      - left. split; [reflexivity|eexists; reflexivity].
      - left. split; [reflexivity|eexists; reflexivity].
      - auto. }
    destruct Hc as [[-> (r & ->)]|[-> ->]].
    - cbn [scan_child Nat.eqb]. fold x. rewrite L1. exists x, 0, 0. rewrite Nat.min_0_r. split; [reflexivity|]. split; [lia|]. split; [lia|]. split; assumption.
    - change (Nat.max 0 (min_size 2 3)) with 1. change (seq 1 (S (max_size 2 3) - 1)) with [1]. cbn [scan_child Nat.eqb]. change (Nat.min (2 - 1) 1) with 1.
      destruct (is_empty (c_retrieve T (s_c s) (V b) b 1 1)) eqn:Ee; [apply (Hfall (Nat.max 1 (S (max_size 2 3))))|].
      apply ne_retrieve in Ee. exists (c_retrieve T (s_c s) (V b) b 1 1), 1, 1. split; [reflexivity|]. split; [lia|]. split; [lia|]. split; [apply cached_wit; assumption|].
      destruct (cached_P b 1 1 (s_c s) HD Hp Ee) as (_ & _ & HL). apply (HL eq_refl eq_refl). destruct Ht0 as (A1 & A2 & A3 & A4). repeat split; try assumption; lia.
  Qed.

  Lemma vsize_V b : vsize (V b) <= vsize root.
  Proof.
    unfold vsize, restrict. clear. induction root as [|x r IH]; [reflexivity|]. cbn [map concat]. rewrite !app_length.
    assert (length (filter (sat b) x) <= length x) by (clear; induction x as [|i x IHx]; cbn; [lia|destruct (sat b i); cbn; lia]). unfold view in *. lia.
  Qed.
  Lemma construct_low fuel : forall sol b d0 n0 s ot s', Nat.min d0 n0 < fuel -> Nat.min d0 n0 <= 2 -> SI s -> D0 (s_c s) -> wit T G (V b) (Nat.min d0 n0) sol ->
    construct T G fuel sol (V b) b d0 n0 s = (ot, s') -> s' = set_on s false /\ exists t, ot = Some t /\ (cost (V b) t <= nd_sol sol)%Z.
  Proof.
    induction fuel as [|fuel IH]; intros sol b d0 n0 s0 ot s' Hf H2 HS HD Hw; [lia|].
    cbn [construct]. set (d := Nat.min d0 n0) in *. set (n := Nat.min n0 (2 ^ d - 1)). set (s := set_on s0 false).
    destruct (nd_feat sol) as [f|] eqn:Ef.
    2:{ assert (E0 : num_nodes sol = 0) by (unfold num_nodes; rewrite Ef; reflexivity). rewrite E0. cbn [Nat.eqb]. rewrite orb_true_r.
        unfold wit in Hw. rewrite Ef in Hw. destruct Hw as (l & -> & _ & _ & E4). intro H. injection H as <- <-. split; [reflexivity|]. exists (Leaf l). split; [reflexivity|]. lia. }
    assert (Hnn : num_nodes sol = nd_l sol + nd_r sol + 1) by (unfold num_nodes; rewrite Ef; reflexivity).
    pose proof Hw as Hw0. unfold wit in Hw. rewrite Ef in Hw. destruct Hw as (B0 & B1 & B2 & B3 & tl & tr & C1 & C2 & C3 & C4 & C5).
    assert (Hn : d <= n <= 2 ^ d - 1 /\ d <= n0) by (unfold n; pose proof (Nat.pow_gt_lin_r 2 d ltac:(lia)); lia).
    assert (E0 : (d =? 0) || (n =? 0) || (num_nodes sol =? 0) = false) by (rewrite !orb_false_iff, !Nat.eqb_neq; lia). rewrite E0.
    destruct (c_term G && negb ((d =? 1) || (n =? 1) || (num_nodes sol =? 1)) && (d <=? 2)) eqn:Et.
    - destruct (term_construct_spec T G HT Hmls Hmay sol (V b) b d H2 (wf_restrict _ _ _ Hwf) ltac:(intro t; apply cost_lt_worst; assumption)
        ltac:(intros g t; rewrite (V_left root); apply cost_lt_worst; assumption) ltac:(intros g t; rewrite (V_right root); apply cost_lt_worst; assumption) Hw0) as (t & E1 & _ & _ & E2).
      rewrite E1. intro H. injection H as <- <-. split; [reflexivity|]. exists t. auto.
    - assert (H00 : nd_l sol = 0 /\ nd_r sol = 0).
      { rewrite Hct in Et. cbn [andb] in Et. assert (d <=? 2 = true) as Ed by (apply Nat.leb_le; exact H2). rewrite Ed, andb_true_r in Et. apply negb_false_iff in Et.
        rewrite !orb_true_iff, !Nat.eqb_eq in Et. destruct (Nat.eq_dec d 1) as [E1|E1]; [rewrite E1 in B2, B3; cbn in B2, B3; lia|]. lia. }
      destruct H00 as [Hl0 Hr0]. rewrite Hl0, Hr0 in *.
      pose proof (allowed_size _ _ _ _ _ _ C1) as S1. pose proof (allowed_size _ _ _ _ _ _ C2) as S2. pose proof (vsize_split f (V b)) as Hs.
      pose proof (vsize_V b) as Hvb.
      rewrite (V_left root), (V_right root) in *.
      destruct (child_low (br_left b f) d n s tl eq_refl HS HD ltac:(unfold proper; lia) ltac:(lia) ltac:(lia) C1) as (lsol & ld & lk & L1 & L2 & L3 & L4 & L5).
      destruct (child_low (br_right b f) d n s tr eq_refl HS HD ltac:(unfold proper; lia) ltac:(lia) ltac:(lia) C2) as (rsol & rd & rk & R1 & R2 & R3 & R4 & R5).
      rewrite L1, R1.
      destruct (construct T G fuel lsol _ _ ld lk s) as [lt s3] eqn:E3.
      destruct (IH lsol (br_left b f) ld lk s lt s3) as [-> (t1 & -> & T1)]; try (rewrite Nat.min_l by exact L3); try assumption; [lia|lia|].
      destruct (construct T G fuel rsol _ _ rd rk _) as [rt s4] eqn:E4.
      destruct (IH rsol (br_right b f) rd rk (set_on s false) rt s4) as [-> (t2 & -> & T2)]; try (rewrite Nat.min_l by exact R3); try assumption; [lia|lia|].
      intro H. injection H as <- <-. split; [reflexivity|]. exists (Split f t1 t2). split; [reflexivity|]. rewrite tree_cost_split, (V_left root), (V_right root). lia.
  Qed.

  (** Without caches. *)
  Lemma off_ne c b d n : cache_used c = false -> ~ ne c b d n.
  Proof.
    unfold cache_used. rewrite orb_false_iff. intros [A B]. unfold ne, bes, des. rewrite A, B. unfold hasn. cbn. intros [H|H]; discriminate.
  Qed.
  Lemma off_D0 c : cc_n c = N -> cache_used c = false -> D0 c.
  Proof.
    unfold cache_used. rewrite orb_false_iff. intros Hn [A B]. split; [exact Hn|]. intros b _. unfold bes, des. rewrite A, B. repeat constructor.
  Qed.
  Lemma off_lb s v b d n : cache_used (s_c s) = false -> nd_sol (compute_lb T G s v b d n) = 0%Z.
  Proof.
    unfold cache_used. rewrite orb_false_iff. intros [A B]. unfold compute_lb, Model_Cache.c_lb. rewrite (gt_sparse T HT), (gt_lb T HT), A, B.
    destruct (Model_Solver.c_lb G), (cc_use_lb (s_c s)); reflexivity.
  Qed.
  Lemma sub_off fuel b a z t s r s' : cache_used (s_c s) = false -> s_on s = false -> mls <= vsize (V b) -> 1 <= a <= 3 -> (a = 2 -> z = nd_sol (r2 (V b))) ->
    alw T G 2 a (V b) t -> cost (V b) t = z -> solve_sub T G (S fuel) (V b) b (init_sol T) (Nat.min 2 a) a s = (r, s') -> is_empty r = false -> (nd_sol r <= z)%Z.
  Proof.
    intros Hu Hon Hsz Ha Hz Ht Hc. cbn [solve_sub]. unfold in_time. rewrite Hon. cbn [negb]. unfold reduce_budget. rewrite (gt_sparse T HT).
    assert (E0 : (Nat.min 2 a =? 0) || (a =? 0) = false) by (rewrite orb_false_iff, !Nat.eqb_neq; lia). rewrite E0.
    assert (Hoff : forall st d n, cache_used (s_c st) = false -> is_empty (c_retrieve T (s_c st) (V b) b d n) = true).
    { intros st d n Hx. apply not_false_is_true. intro H. apply ne_retrieve in H. exact (off_ne _ _ _ _ Hx H). }
    rewrite Hoff by exact Hu. cbn [negb].
    assert (Hcont : forall s2, (if c_term G && (Nat.min 2 a <=? 2) then solve_terminal T G (V b) b (init_sol T) (Nat.min 2 a) a s2 else general_case T G (solve_sub T G fuel) (V b) b (init_sol T) (Nat.min 2 a) a s2) = (r, s') ->
      is_empty r = false -> (nd_sol r <= z)%Z).
    { intro s2. rewrite Hct. replace (Nat.min 2 a <=? 2) with true by (symmetry; apply Nat.leb_le; lia). cbn [andb]. unfold solve_terminal. intro H. injection H as <- _.
      destruct (tk_sdom T _ _); [discriminate|]. intros _.
      assert (Hnl' : 1 <= num_labels (V b)) by (rewrite (V_nl root); exact Hnl).
      assert (a = 1 \/ a = 2 \/ a = 3) as [-> |[-> | ->]] by lia.
      - destruct (term_one T G HT (V b) b Hmls ltac:(intro u; apply cost_lt_worst; assumption) (wf_restrict _ _ _ Hwf) Hnl' Hsz 1 ltac:(lia)) as (_ & _ & HL).
        rewrite <- Hc. apply HL. pose proof (depth_le_nodes t). destruct Ht as (B1 & B2 & B3 & B4). repeat split; try assumption; lia.
      - rewrite (Hz eq_refl). change (term_solve T nf mls (V b) b 2) with (term_solve T nf mls (V b) b 3). rewrite (term_indep b Hsz). fold (r2 (V b)). lia.
      - rewrite (term_indep b Hsz). fold (r3 (V b)). destruct (wits3' b Hsz) as (_ & _ & _ & _ & _ & HL). rewrite <- Hc. apply HL; assumption. }
    destruct (Model_Solver.c_lb G); [|apply Hcont].
    pose proof (keep_sim T G (fun st => cache_used (s_c st) = false)) as Hks.
    specialize (Hks ltac:(intros; cbn [set_c s_c] in *; rewrite used_upd; assumption) ltac:(intros; cbn [set_c s_c] in *; rewrite used_transfer; assumption) s (V b) b (Nat.min 2 a) a Hu).
    destruct (update_sim T G s (V b) b (Nat.min 2 a) a) as [upd s2]. cbn [snd] in Hks.
    rewrite Hoff by exact Hks. rewrite andb_false_r. destruct (c_ub G && _); [intro H; injection H as <- <-; discriminate|].
    rewrite off_lb by exact Hks. rewrite (gt_eq0 T HT). destruct (0 =? _)%Z eqn:Ez; [|apply Hcont].
    intro H. injection H as <- <-. intros _. apply Z.eqb_eq in Ez. rewrite <- Ez, <- Hc. apply cost_nonneg. exact HT.
  Qed.

  Lemma child3 b n a z s : good s -> Dc (s_c s) -> okc (s_c s) b a z -> 3 <= n -> a <= n - 1 -> min_size 3 n <= a ->
    exists sol cd k s', child_sol T G (V b) b 3 n a s = ((sol, cd, k), s') /\ good s' /\ (s' = s \/ cache_used (s_c s') = false) /\ cache_used (s_c s') = cache_used (s_c s)
      /\ cd <= 2 /\ cd <= k /\ wit T G (V b) cd sol /\ (nd_sol sol <= z)%Z.
  Proof.
    intros Hg HD (Hsz & Ha & Hne & H2 & t & Ht & Hz) Hn Han Hmin. unfold child_sol.
    rewrite Nat.max_l by exact Hmin. change (3 - 1) with 2.
    assert (Hdt : depth t <= a) by (pose proof (depth_le_nodes t); destruct Ht as (_ & _ & _ & ?); lia).
    destruct (cache_used (s_c s)) eqn:Eu.
    - assert (Hmx : S (max_size 3 n) - a = S (Nat.min 3 (n - 1) - a)) by (unfold max_size; change (2 ^ (3 - 1) - 1) with 3; lia).
      rewrite Hmx. cbn [seq].
      assert (Hret : forall sol k, k <= 3 -> a <= k -> (k = 0 -> sol = fst (solve_leaf T G (V b) (init_sol T))) -> wit T G (V b) (Nat.min 2 k) sol -> (nd_sol sol <= z)%Z ->
        exists sol0 cd k0 s', (sol, Nat.min 2 k, k, s) = (sol0, cd, k0, s') /\ good s' /\ (s' = s \/ cache_used (s_c s') = false) /\ cache_used (s_c s') = true
        /\ cd <= 2 /\ cd <= k0 /\ wit T G (V b) cd sol0 /\ (nd_sol sol0 <= z)%Z).
      { intros sol k K1 K2 _ K3 K4. exists sol, (Nat.min 2 k), k, s. split; [reflexivity|]. split; [exact Hg|]. split; [auto|]. split; [exact Eu|]. split; [lia|]. split; [lia|]. auto. }
      destruct (Nat.eq_dec a 0) as [-> |Ha0].
      { cbn [scan_child Nat.eqb]. destruct (leaf0 b (Nat.min 2 0) ltac:(lia)) as (L1 & L2 & L3). rewrite L1. apply Hret; try lia; auto.
        rewrite <- Hz. apply L3. destruct Ht as (B1 & B2 & B3 & B4). repeat split; try assumption; lia. }
      assert (N3 : ne (s_c s) b 2 3) by (apply Hne; [reflexivity|lia]).
      assert (Hp : proper b) by (unfold proper; lia).
      assert (N2 : ne (s_c s) b 2 2) by (apply (proj2 HD b Hp); exact N3).
      destruct (wits3 b ltac:(lia)) as (W1 & W2 & W3 & W4 & W5). destruct (wits3' b ltac:(lia)) as (_ & _ & _ & L2 & _ & L3).
      assert (a = 1 \/ a = 2 \/ a = 3) as [-> |[-> | ->]] by lia.
      + assert (Ht1 : alw T G 1 1 (V b) t) by (destruct Ht as (B1 & B2 & B3 & B4); repeat split; try assumption; lia).
        cbn [scan_child Nat.eqb]. change (Nat.min 2 1) with 1. destruct (is_empty (c_retrieve T (s_c s) (V b) b 1 1)) eqn:E1.
        * destruct (Nat.min 3 (n - 1) - 1) as [|m] eqn:Em; [lia|]. cbn [seq scan_child Nat.eqb]. change (Nat.min 2 2) with 2.
          rewrite (proj1 (ne_retrieve _ _ _ _) N2), (cached_r b (s_c s) (proj1 HD) Hp N2).
          apply (Hret (r2 (V b)) 2); try lia; [exact W1|]. rewrite <- Hz. apply L2. exact Ht1.
        * apply ne_retrieve in E1. apply (Hret _ 1); try lia.
          { apply cached_wit; [apply Hg|exact E1]. }
          rewrite <- Hz. destruct (cached_P b 1 1 (s_c s) (proj1 HD) Hp E1) as (_ & _ & HL). apply (HL eq_refl eq_refl). exact Ht1.
      + cbn [scan_child Nat.eqb]. change (Nat.min 2 2) with 2. rewrite (proj1 (ne_retrieve _ _ _ _) N2), (cached_r b (s_c s) (proj1 HD) Hp N2).
        apply (Hret (r2 (V b)) 2); specialize (H2 eq_refl); try lia. exact W1.
      + cbn [scan_child Nat.eqb]. change (Nat.min 2 3) with 2. rewrite (proj1 (ne_retrieve _ _ _ _) N3).
        destruct (cached_P b 2 3 (s_c s) (proj1 HD) Hp N3) as (_ & Hx & _). rewrite (Hx eq_refl eq_refl).
        apply (Hret (r3 (V b)) 3); try lia; [exact W3|]. rewrite <- Hz. apply L3; assumption.
    - destruct (solve_sub T G (S (Nat.min 2 a)) (V b) b (init_sol T) (Nat.min 2 a) a s) as [r s1] eqn:E1.
      destruct (sub_good T G HT root N false Hids Hsorted Hwf Hred Hmls Horder Hworst Hnl (ff _) (ff _) (S (Nat.min 2 a)) b (init_sol T) (Nat.min 2 a) a s r s1 ltac:(lia) ltac:(lia)) as (B1 & B2 & B3 & _);
        try assumption; try reflexivity; [|exact (ff _)|].
      { assert (a = 0 \/ a = 1 \/ a = 2 \/ a = 3) as [-> |[-> |[-> | ->]]] by lia; cbn; lia. }
      rewrite (wit_nonempty _ _ _ _ _ B2).
      pose proof (used_sub T G (S (Nat.min 2 a)) (V b) b (init_sol T) (Nat.min 2 a) a s _ Eu) as Hus. rewrite E1 in Hus. cbn [snd] in Hus.
      exists r, (Nat.min 2 a), a, s1. split; [reflexivity|]. split; [exact B1|]. split; [auto|]. split; [exact Hus|]. split; [lia|]. split; [lia|]. split; [exact B2|].
      destruct (Nat.eq_dec a 0) as [-> |Ha0].
      + change (Nat.min 2 0) with 0 in *. rewrite sub00 in E1 by apply Hg. injection E1 as <- <-. destruct (leaf0 b 0 ltac:(lia)) as (_ & _ & L3). rewrite <- Hz. apply L3.
        destruct Ht as (C1 & C2 & C3 & C4). repeat split; try assumption; lia.
      + apply (sub_off (Nat.min 2 a) b a z t s r s1 Eu); try assumption; [apply Hg|lia|lia|]. apply (wit_nonempty _ _ _ _ _ B2).
  Qed.

  Lemma construct3 x fuel s t s' : okn (s_c s) x -> 3 <= num_nodes x -> Dc (s_c s) -> SI s -> KK s -> 3 <= fuel ->
    construct T G (S fuel) x root [] 3 (num_nodes x) s = (Some t, s') -> (cost root t <= nd_sol x)%Z.
  Proof.
    intros (f & zl & zr & Ef & Es & Hl & Hr) Hn HD HS HK Hfu. cbn [construct].
    assert (Hnn : num_nodes x = nd_l x + nd_r x + 1) by (unfold num_nodes; rewrite Ef; reflexivity).
    assert (La : nd_l x <= 3) by apply Hl. assert (Ra : nd_r x <= 3) by apply Hr.
    rewrite (Nat.min_l 3) by exact Hn. change (2 ^ 3 - 1) with 7. rewrite (Nat.min_l (num_nodes x)) by lia.
    assert (E0 : (3 =? 0) || (num_nodes x =? 0) || (num_nodes x =? 0) = false) by (rewrite !orb_false_iff, !Nat.eqb_neq; lia).
    rewrite E0. change (3 <=? 2) with false. rewrite andb_false_r, Ef.
    set (s0 := set_on s false).
    assert (Hg : good s0) by (split; [|split; [|split]]; [exact HS|exact HK|reflexivity|exact (ff _)]).
    assert (EL : split_left f root = V (br_left [] f)) by (rewrite <- (V_left root), restrict_nil; reflexivity).
    assert (ER : split_right f root = V (br_right [] f)) by (rewrite <- (V_right root), restrict_nil; reflexivity). rewrite EL, ER.
    assert (Hmn : min_size 3 (num_nodes x) = num_nodes x - 1 - Nat.min 3 (num_nodes x - 1)) by reflexivity.
    assert (Hoff : forall s1, good s1 -> cache_used (s_c s1) = false -> Dc (s_c s1)).
    { intros s1 [[HI _] _] Hu. split; [apply off_D0; [apply HI|exact Hu]|]. intros b _. split; intro Hx; destruct (off_ne _ _ _ _ Hu Hx). }
    destruct (child3 (br_left [] f) (num_nodes x) (nd_l x) zl s0 Hg HD Hl ltac:(lia) ltac:(lia) ltac:(lia)) as (lsol & ld & lk & s1 & E1 & G1 & U1 & V1 & L1 & L2 & L3 & L4).
    rewrite E1.
    assert (H1 : Dc (s_c s1) /\ okc (s_c s1) (br_right [] f) (nd_r x) zr).
    { destruct U1 as [-> |U1]; [split; [exact HD|exact Hr]|]. split; [apply Hoff; assumption|]. destruct Hr as (X1 & X2 & X3 & X4). split; [exact X1|]. split; [exact X2|]. split; [|exact X4]. congruence. }
    destruct H1 as [HD1 Hr1].
    destruct (child3 (br_right [] f) (num_nodes x) (nd_r x) zr s1 G1 HD1 Hr1 ltac:(lia) ltac:(lia) ltac:(lia)) as (rsol & rd & rk & s2 & E2 & G2 & U2 & V2 & R1 & R2 & R3 & R4).
    rewrite E2.
    assert (HD2 : Dc (s_c s2)) by (destruct U2 as [-> |U2]; [exact HD1|apply Hoff; assumption]).
    destruct (construct T G fuel lsol _ _ ld lk s2) as [lt s3] eqn:E3.
    destruct (construct_low fuel lsol (br_left [] f) ld lk s2 lt s3) as [-> (t1 & -> & T1)]; try (rewrite Nat.min_l by exact L2); try assumption; [lia|apply G2|apply HD2|].
    destruct (construct T G fuel rsol _ _ rd rk _) as [rt s4] eqn:E4.
    destruct (construct_low fuel rsol (br_right [] f) rd rk (set_on s2 false) rt s4) as [-> (t2 & -> & T2)]; try (rewrite Nat.min_l by exact R2); try assumption; [lia|apply G2|apply HD2|].
    intro H. injection H as <- <-. rewrite tree_cost_split, EL, ER. lia.
  Qed.

  Lemma node_eqb_refl x : node_eqb x x = true.
  Proof.
    assert (Ho : forall o, opt_nat_eqb o o = true) by (destruct o; cbn; [apply Nat.eqb_refl|reflexivity]).
    unfold node_eqb. rewrite !Ho, Z.eqb_refl, !Nat.eqb_refl. reflexivity.
  Qed.
  Lemma R_found c x : D0 c -> R c x -> cache_used c = true -> is_empty x = false -> c_retrieve T c root [] 2 3 = x /\ c_is_optimal c root [] 2 3 = true.
  Proof.
    intros _ HR Hu Hx. unfold R in HR. unfold c_retrieve, c_is_optimal. destruct (cc_use_branch c) eqn:Eb.
    - rewrite (fst_opt_retrieve T _ _ _ _ HR), (fst_opt_optimal _ _ _ _ HR), Hx. split; reflexivity.
    - unfold cache_used in Hu. rewrite Eb in Hu. cbn [orb] in Hu. unfold des in HR. rewrite Hu in *.
      rewrite (fst_opt_retrieve T _ _ _ _ HR), (fst_opt_optimal _ _ _ _ HR). cbn [init_sol value_node is_empty nd_feat nd_lab andb orb]. rewrite Hx. split; reflexivity.
  Qed.

  Theorem solve_three (P : params) ubr uda lbf s0 t : mls <= vsize root -> p_depth P = 3 -> p_nodes P = 7 -> p_all P = false -> SI s0 -> KK s0 -> s_c s0 = fresh ubr uda lbf ->
    (forall d, s_ar s0 d = []) ->
    let A := solve T G P root (init_sol T) s0 in
    a_tree A = Some t -> (cost root t <= nd_sol (a_sol A))%Z.
  Proof.
    intros Hsz Hd Hn Hall HS HK Hc Har. unfold solve.
    set (s := St (s_c s0) (s_ar s0) (s_tick s0) false true 0 (s_err s0)).
    assert (HS' : SI s) by (eapply SInv_c; [..|exact HS]; reflexivity).
    assert (HK' : KK s) by (eapply K_c; [..|exact HK]; reflexivity).
    pose proof (first_ub_spec T G HT root N false P Hmls Hworst Hnl (ff _) (ff _) Hsz s HS' HK' eq_refl) as HO.
    destruct (first_ub T G P root (init_sol T)) as [res gub]. rewrite Hall, Hn.
    change (7 =? 1) with false. cbn iota. rewrite Hd. change (Nat.min 3 7) with 3. change (seq (Nat.min 2 3) (4 - Nat.min 2 3)) with [2; 3].
    set (Q := outer_loop _ _ _).
    assert (Hres : num_nodes res <= 2).
    { destruct HO as (_ & _ & _ & [B4|[B4 B4']] & _); cbn [o_res] in *; [rewrite B4; cbn; lia|lia]. }
    assert (HO' : OI T G root N false P 0 7 (fun t => exists l, t = Leaf l /\ l < num_labels root) (Outer res gub s 3)).
    { rewrite Hd in HO. destruct HO as (B1 & B2 & B3 & B4 & B5). split; [exact B1|]. split; [exact B2|]. split; [exact B3|]. split; [|exact B5].
      destruct B4 as [B4|[B4 B4']]; [auto|right]. split; [exact B4|lia]. }
    destruct (outer3 P ubr uda lbf res gub s Hsz Hn Hc HS' Har Hres) as [QD QO]. rewrite Hd in QD, QO. fold Q in QD, QO.
    destruct (depth_loop T G HT root N false P Hids Hsorted Hwf Hred Hmls Horder Hworst Hnl (ff _) (ff _) Hsz
                7 1 2 0 _ _ HO' eq_refl ltac:(lia) ltac:(lia) ltac:(lia)) as (Q1 & Q2 & Q3).
    { intros d Hdd. exact (ff _). }
    change (seq 2 2) with [2; 3] in Q1, Q2, Q3. fold Q in Q1, Q2, Q3. clearbody Q. clear HO HO' Hres.
    destruct (in_time G (o_st Q)) as [proven s1] eqn:Et. destruct (on_time G _ _ _ Et Q1) as (T1 & T2 & T3 & T4 & T5 & T6).
    destruct (nd_sol (o_res Q) =? worst)%Z eqn:Ew; cbn zeta; [cbn [a_tree]; discriminate|].
    set (dep := Nat.min (find_depth _ _ _ _ _ _) _).
    destruct (construct T G (S dep) (o_res Q) root [] dep (num_nodes (o_res Q)) s1) as [ot s2] eqn:Ec.
    cbn [a_sol a_tree]. intros ->.
    destruct (Q3 (ff _)) as (cov & (C2 & C3 & _ & C4 & _) & _). apply Z.eqb_neq in Ew.
    destruct C4 as [C4|[C4 C4']]; [rewrite C4 in Ew; cbn in Ew; lia|].
    assert (HS1 : SI s1) by (eapply SInv_c; eassumption).
    assert (HK1 : KK s1) by (eapply K_c; eassumption).
    rewrite <- T2 in QD, QO.
    assert (Hdm : dep <= 3) by (unfold dep; lia).
    (* the depth used for the reconstruction *)
    assert (Hdw : wit T G root (Nat.min dep (num_nodes (o_res Q))) (o_res Q)).
    { unfold dep. set (from := int_log2 (num_nodes (o_res Q) + 1)). set (top := Nat.min (o_mds Q) (num_nodes (o_res Q))).
      destruct (find_depth_cases T G root false Hmls Hnl (ff _) (ff _) Hsz s1 (o_res Q) (S top - from) from (Nat.max from (S top)) ltac:(lia)) as [(A1 & A2 & A3)|A].
      - set (k := find_depth _ _ _ _ _ _) in *.
        assert (Hk : wit T G root k (o_res Q)).
        { destruct HS1 as [HI _]. rewrite <- (restrict_nil root) in A3 at 1.
          destruct (retrieve_entry T N root _ (s_c s1) [] k (num_nodes (o_res Q)) HI) as [Hx|(_ & e & [He _] & Hdd & Hnn & Ho & Hr)].
          - rewrite A3 in Hx. rewrite Hx in Ew. cbn in Ew. lia.
          - rewrite A3 in Hr. destruct (He Ho) as (W1 & _). rewrite Hdd, <- Hr, restrict_nil in W1. exact W1. }
        eapply wit_mono with (d := Nat.min k (o_mds Q)); [|lia].
        destruct (Nat.min_spec k (o_mds Q)) as [[_ ->]|[_ ->]]; assumption.
      - rewrite A. eapply wit_mono; [exact C4|]. unfold top. lia. }
    destruct (le_lt_dec (Nat.min dep (num_nodes (o_res Q))) 2) as [Hlow|Hhigh].
    - rewrite <- (restrict_nil root) in Ec, Hdw at 1.
      destruct (construct_low (S dep) (o_res Q) [] dep (num_nodes (o_res Q)) s1 (Some t) s2 ltac:(lia) Hlow HS1 (proj1 QD) Hdw Ec) as (_ & t' & Et' & D3).
      injection Et' as <-. rewrite restrict_nil in D3. exact D3.
    - assert (Hd3 : dep = 3) by lia. destruct QO as [[QO|QO]|[Hu QO]]; [lia| |].
      + rewrite Hd3 in Ec. eapply (construct3 (o_res Q) 3); try eassumption; lia.
      + exfalso. destruct (R_found _ _ (proj1 QD) QO Hu (wit_nonempty _ _ _ _ _ C4)) as [Hr Ho].
        assert (H3 : num_nodes (o_res Q) <= 3).
        { destruct HS1 as [HI _]. pose proof Hr as Hr2. rewrite <- (restrict_nil root) in Hr2 at 1.
          destruct (retrieve_entry T N root _ (s_c s1) [] 2 3 HI) as [Hx|(_ & e & [He _] & Hdd & Hnn & Hoe & Hr')].
          - rewrite Hr2 in Hx. rewrite Hx in Ew. cbn in Ew. lia.
          - rewrite Hr2 in Hr'. destruct (He Hoe) as (_ & W2 & _). rewrite Hnn, <- Hr' in W2. exact W2. }
        assert (H3' : num_nodes (o_res Q) = 3) by lia. unfold dep in Hd3. rewrite H3' in Hd3. change (int_log2 (3 + 1)) with 2 in Hd3.
        assert (Hm : o_mds Q = 3) by lia. rewrite Hm in Hd3. change (seq 2 (4 - 2)) with [2; 3] in Hd3. change (Nat.min 3 3) with 3 in Hd3. change (seq 2 (4 - 2)) with [2; 3] in Hd3.
        cbn [find_depth] in Hd3. rewrite H3', Hr, node_eqb_refl, Ho in Hd3. cbn in Hd3. lia.
  Qed.
End Three.

(** ** The value found at depth three when upper bounds are off *)
Section ThreeValue.
  Context (T : task) (G : cfg) (HT : good_task T) (root : view) (N : nat) (P : params).
  Notation nf := (c_nf G).
  Notation mls := (c_mls G).
  Notation cost := (tree_cost (tk_inst T)).
  Notation worst := (tk_worst T).
  Hypothesis Hids : ids_ok N root.
  Hypothesis Hsorted : view_sorted root.
  Hypothesis Hwf : wf_view nf root.
  Hypothesis Hred : forall f x, c_redundant G f = true -> In x (concat root) -> has f x = false.
  Hypothesis Hmls : 1 <= mls.
  Hypothesis Horder : forall v f, In f (c_order G v) <-> f < nf.
  Hypothesis Hworst : within T root.
  Hypothesis Hnl : 1 <= num_labels root.
  Hypothesis Hsim : c_sim G = true -> mls = 1.
  Hypothesis Hterm : mls = 1.
  Hypothesis Hct : c_term G = true.
  Hypothesis Hub : c_ub G = false.
  Hypothesis Hsz : mls <= vsize root.

  Theorem solve_three_value s0 : SInv T G root N true s0 -> K T root N s0 -> p_depth P = 3 -> p_nodes P = 7 -> p_all P = false ->
    let A := solve T G P root (init_sol T) s0 in
    a_proven A = true -> forall t, alw T G 3 7 root t -> (U0 T P < cost root t)%Z \/ (is_empty (a_sol A) = false /\ (nd_sol (a_sol A) <= cost root t)%Z).
  Proof.
    intros HS HK Hd Hn Hall. unfold solve.
    set (s := St (s_c s0) (s_ar s0) (s_tick s0) false true 0 (s_err s0)).
    assert (HS' : SInv T G root N true s) by (eapply SInv_c; [..|exact HS]; reflexivity).
    assert (HK' : K T root N s) by (eapply K_c; [..|exact HK]; reflexivity).
    pose proof (first_ub_spec T G HT root N true P Hmls Hworst Hnl (fun _ => Hsim) (fun _ _ => Hterm) Hsz s HS' HK' eq_refl) as HO.
    pose proof (first_ub_found T G HT root P Hworst Hnl Hsz Hub) as Hfound.
    destruct (first_ub T G P root (init_sol T)) as [res gub]. cbn [fst] in Hfound. rewrite Hall, Hn.
    change (7 =? 1) with false. cbn iota. rewrite Hd. change (Nat.min 3 7) with 3. change (seq (Nat.min 2 3) (4 - Nat.min 2 3)) with [2; 3].
    rewrite Hd in HO. set (Q0 := Outer res gub s 3) in *.
    assert (HO' : OI T G root N true P 0 7 (fun t => exists l, t = Leaf l /\ l < num_labels root) Q0).
    { destruct HO as (B1 & B2 & B3 & B4 & B5). split; [exact B1|]. split; [exact B2|]. split; [exact B3|]. split; [|exact B5].
      destruct B4 as [B4|[B4 B4']]; [auto|right]. split; [exact B4|lia]. }
    set (Q := outer_loop _ _ _).
    assert (HQ : s_on (o_st Q) = true /\ (s_late (o_st Q) = false -> forall t, alw T G 3 7 root t -> (U0 T P < cost root t)%Z \/ (is_empty (o_res Q) = false /\ (nd_sol (o_res Q) <= cost root t)%Z))).
    { unfold Q. cbn [outer_loop]. destruct (depth_step T G P root Q0 2) as [Q1 ok1] eqn:E1.
      destruct (depth_step_spec T G HT root N true P Hids Hsorted Hwf Hred Hmls Horder Hworst Hnl (fun _ => Hsim) (fun _ _ => Hterm) Hsz
                  0 7 _ Q0 2 Q1 ok1 HO' eq_refl ltac:(lia) ltac:(lia) ltac:(lia)) as (A1 & A2 & A3 & A4 & A5).
      { intros _ _. rewrite Hn. cbn. lia. }
      { exact E1. }
      destruct ok1.
      2:{ split; [exact A1|]. rewrite A4 by reflexivity. discriminate. }
      destruct (depth_step T G P root Q1 3) as [Q2 ok2] eqn:E2.
      assert (Hx : (if ok2 then Q2 else Q2) = Q2) by (destruct ok2; reflexivity). rewrite Hx.
      unfold depth_step in E2. rewrite Hn in E2. change (Nat.min 7 (2 ^ 3 - 1)) with 7 in E2.
      destruct (solve_sub T G 4 root [] (o_ub Q1) 3 7 (o_st Q1)) as [sol s2] eqn:E3.
      destruct (in_time G (set_mdf s2 3)) as [ok s3] eqn:E4. injection E2 as <- ->. cbn [o_st o_res].
      destruct (sub_frame T G HT root true Hmls Hnl (fun _ => Hsim) (fun _ _ => Hterm) Hsz 3 7 (o_ub Q1) (o_st Q1) sol s2 E3 A1) as [F1 F2].
      destruct (on_time G _ _ _ E4 F1) as (T1 & T2 & T3 & T4 & T5 & T6). cbn [set_mdf s_late] in T6.
      split; [exact T1|]. intros Hl t Ht.
      assert (L2 : s_late s2 = false) by (destruct (s_late s2); [rewrite T6 in Hl by reflexivity; discriminate|reflexivity]).
      assert (L1 : s_late (o_st Q1) = false) by (destruct (s_late (o_st Q1)); [rewrite F2 in L2 by reflexivity; discriminate|reflexivity]).
      destruct (A5 (fun _ => L1)) as (B1 & B2 & B3 & B4 & B5 & _).
      specialize (B5 eq_refl).
      assert (Hr1 : (nd_sol (o_res Q1) < worst)%Z).
      { clear - E1 Hfound. unfold depth_step in E1. destruct (solve_sub _ _ _ _ _ _ _ _ _) as [sol' s'].
        destruct (in_time G (set_mdf s' 2)) as [? ?]. injection E1 as <- _. cbn [o_res Q0]. pose proof (add_sol_le res sol'). lia. }
      destruct B4 as [B4|[B4 B4']]; [rewrite B4 in Hr1; cbn in Hr1; lia|].
      rewrite (wit_nonempty _ _ _ _ _ B4) in B5.
      assert (Hw : (nd_sol (o_res Q1) < worst)%Z) by (exact (wit_sol_lt T G HT root Hworst _ _ B4)).
      rewrite <- (restrict_nil root) in E3 at 1.
      assert (Hsz' : mls <= vsize (restrict [] root)) by (rewrite restrict_nil; exact Hsz).
      pose proof (solve_sub_three T G HT root N true Hids Hsorted Hwf Hred Hmls Horder Hworst Hnl (fun _ => Hsim) (fun _ _ => Hterm)
                    4 [] (o_ub Q1) (o_st Q1) sol s2 eq_refl Hub Hct ltac:(lia) Hsz' B1 E3 (fun _ => L2) t) as V3.
      rewrite restrict_nil in V3. specialize (V3 Ht).
      destruct (solve_sub_contract T G HT root N false Hids Hsorted Hwf Hred Hmls Horder Hworst Hnl (ff _) (ff _) 4
                [] (o_ub Q1) 3 7 (o_st Q1) sol s2 ltac:(lia) Hsz' ltac:(cbn; lia) (ff _) ltac:(eapply SInv_weaken; [|exact B1]; discriminate) E3 (ff _)) as [_ C].
      rewrite restrict_nil in C. pose proof (gt_md T HT) as Hmd.
      unfold add_sol. destruct C as [[-> _]|(C & _)].
      - cbn [init_sol value_node nd_sol is_empty nd_feat nd_lab] in *. destruct (worst <? nd_sol (o_res Q1))%Z eqn:El; [apply Z.ltb_lt in El; lia|].
        destruct (Z_lt_le_dec (U0 T P) (cost root t)); [auto|right]. split; [apply (wit_nonempty _ _ _ _ _ B4)|lia].
      - rewrite (wit_nonempty _ _ _ _ _ C) in V3. destruct (nd_sol sol <? nd_sol (o_res Q1))%Z eqn:El; [apply Z.ltb_lt in El|apply Z.ltb_ge in El];
          (destruct (Z_lt_le_dec (U0 T P) (cost root t)); [auto|right]; split; [eapply wit_nonempty; eassumption|lia]). }
    destruct HQ as [Q1 Q2]. clearbody Q.
    destruct (in_time G (o_st Q)) as [proven s1] eqn:Et. destruct (on_time G _ _ _ Et Q1) as (_ & _ & _ & T4 & _ & T6).
    assert (HL : proven = true -> s_late (o_st Q) = false).
    { intro Hp. specialize (T4 Hp). destruct (s_late (o_st Q)); [|reflexivity]. rewrite T6 in T4 by reflexivity. discriminate. }
    destruct (nd_sol (o_res Q) =? worst)%Z; cbn zeta.
    - cbn [a_proven a_sol]. intro Hp. apply Q2. auto.
    - destruct (construct _ _ _ _ _ _ _ _ s1) as [ot s2]. cbn [a_proven a_sol]. intro Hp. apply Q2. auto.
  Qed.
End ThreeValue.
