(** C12: results kept in the caches stay valid, whatever the history of calls.
    [cost v t] is the objective value of the tree [t] on the data [v] (any function that is
    never negative), [root] the training data, [restrict b root] the data at branch [b]. *)
From Coq Require Import List Arith Bool Lia ZArith.
From Verif Require Import Model_FeatureVector Model_Data Model_Node Model_Cache Model_Terminal
  Spec_Tree Spec_Examples Proofs_View Proofs_Cache.
Import ListNotations.
Local Open Scope nat_scope.

(** The calls that change the caches: store a solution for a branch with its budgets, raise
    the lower bound of a branch for budgets, and copy the results of one branch to another.
    (Retrieving changes nothing; the iterator memo of the data set cache is property C11.) *)
Inductive call := Store (b : branch) (sol : node) (d n : nat) | Raise (b : branch) (lb : node) (d n : nat)
                | Transfer (src dst : branch).
Definition do_call (T : task) (root : view) (c : caches) (o : call) : caches :=
  match o with
  | Store b sol d n => c_store c (restrict b root) b sol d n
  | Raise b lb d n => c_upd_lb T c (restrict b root) b lb d n
  | Transfer src dst => c_transfer T c src dst
  end.
Definition run_calls (T : task) (root : view) (c : caches) (os : list call) : caches := fold_left (do_call T root) os c.

Section History.
  Context (T : task) (cost : view -> tree -> Z) (ok_f : nat -> Prop) (m : nat) (root : view) (N : nat).

  (** No tree within the budgets is cheaper than [z]. *)
  Definition bounds (v : view) (d n : nat) (z : Z) : Prop := forall t, allowed ok_f m d n v t -> (z <= cost v t)%Z.
  (** [z] is the value of a tree with at most [k] nodes within the budgets, and none is cheaper. *)
  Definition best_value (v : view) (d n k : nat) (z : Z) : Prop :=
    k <= n /\ (exists t, allowed ok_f m d k v t /\ cost v t = z) /\ bounds v d n z.

  (** The call passes a fact: the stored solution is optimal for its budgets, the bound is a
      bound, the two branches reach the same data. *)
  Definition true_fact (o : call) : Prop :=
    match o with
    | Store b sol d n => is_empty sol = false /\ best_value (restrict b root) d n (num_nodes sol) (nd_sol sol)
    | Raise b lb d n => bounds (restrict b root) d n (nd_sol lb)
    | Transfer src dst => restrict src root = restrict dst root
    end.

  Hypothesis Hids : ids_ok N root.
  Hypothesis Hcost : forall v t, (0 <= cost v t)%Z.

  Definition good_entry (v : view) (e : entry) : Prop :=
    (e_is_opt e = true -> best_value v (e_d e) (e_n e) (num_nodes (e_opt e)) (nd_sol (e_opt e)))
    /\ bounds v (e_d e) (e_n e) (nd_sol (e_lb e)).

  Lemma bounds_mono v d n d' n' z : bounds v d n z -> d' <= d -> n' <= n -> bounds v d' n' z.
  Proof. intros H Hd Hn t Ht. apply H. eapply allowed_mono; eauto. Qed.
  Lemma bounds_zero v d n : bounds v d n 0.
  Proof. intros t _. apply Hcost. Qed.
  Lemma upd_good v e lb : good_entry v e -> bounds v (e_d e) (e_n e) (nd_sol lb) -> good_entry v (e_upd_lb e lb).
  Proof.
    intros [H1 H2] Hlb. split; cbn [e_upd_lb e_opt e_lb e_d e_n]; [exact H1|].
    unfold add_sol_inv. destruct (_ <? _)%Z; assumption.
  Qed.
  Lemma store_good v sol d n : best_value v d n (num_nodes sol) (nd_sol sol) ->
    forall db nb, num_nodes sol <= nb <= n -> Nat.min d (num_nodes sol) <= db <= d -> good_entry v (Entry sol sol db nb).
  Proof.
    intros (Hk & (t & Ht & Hv) & Hb) db nb Hnb Hdb. split; cbn [e_opt e_lb e_d e_n].
    - intros _. split; [lia|]. split.
      + exists t. split; [|exact Hv]. destruct Ht as (A & B & C & D). pose proof (depth_le_nodes t). repeat split; try assumption; lia.
      + eapply bounds_mono; [exact Hb|lia|lia].
    - eapply bounds_mono; [exact Hb|lia|lia].
  Qed.

  Lemma call_inv c o : Inv N root good_entry c -> true_fact o -> Inv N root good_entry (do_call T root c o).
  Proof.
    destruct o as [b sol d n|b lb d n|src dst]; cbn [do_call true_fact]; intros HI HF.
    - destruct HF as [He HF]. apply Inv_store; [exact Hids|exact HI|exact He|]. apply store_good. exact HF.
    - apply Inv_upd_lb; [exact Hids|exact HI| |].
      + apply upd_good; [|exact HF]. split; cbn [new_entry e_opt e_lb e_d e_n]; [|apply bounds_zero].
        unfold e_is_opt. cbn [e_opt new_entry]. discriminate.
      + intros e He <- <-. apply upd_good; assumption.
    - apply Inv_transfer; assumption.
  Qed.
  Lemma run_inv os : forall c, Inv N root good_entry c -> Forall true_fact os -> Inv N root good_entry (run_calls T root c os).
  Proof.
    induction os as [|o os IH]; intros c HI HF; [exact HI|]. inversion HF; subst. apply IH; [|assumption]. apply call_inv; assumption.
  Qed.
End History.

(** C12: start with empty caches (either or both switched on, with or without lower bounds)
    and make any calls that pass true facts.  Then an assignment retrieved for a branch and
    budgets is the value of a tree within these budgets, and no tree within them is cheaper;
    a retrieved lower bound is not above any tree within the budgets; and what is reported
    as cached can be retrieved. *)
Theorem C12_every_history : forall T cost ok_f m root N ub ud ul os b d n,
  ids_ok N root -> (forall v t, 0 <= cost v t)%Z -> Forall (true_fact cost ok_f m root) os ->
  let c := run_calls T root (Caches ub ud ul N [] []) os in
  let v := restrict b root in
  (is_empty (c_retrieve T c v b d n) = false ->
     (exists t, allowed ok_f m d n v t /\ nodes t <= num_nodes (c_retrieve T c v b d n) /\ cost v t = nd_sol (c_retrieve T c v b d n))
     /\ (forall t, allowed ok_f m d n v t -> nd_sol (c_retrieve T c v b d n) <= cost v t)%Z)
  /\ (forall t, allowed ok_f m d n v t -> nd_sol (c_lb c v b d n) <= cost v t)%Z
  /\ (c_is_optimal c v b d n = true -> is_empty (c_retrieve T c v b d n) = false).
Proof.
  intros T cost ok_f m root N ub ud ul os b d n Hids Hcost HF c v.
  assert (HI : Inv N root (good_entry cost ok_f m) c) by (apply run_inv; try assumption; apply Inv_empty).
  split; [|split].
  - intro He. destruct (retrieve_entry T N root _ c b d n HI) as [H|(_ & e & [Hg _] & <- & <- & Ho & Hr)].
    + unfold v in He. rewrite H in He. discriminate.
    + fold v in Hr. rewrite Hr. destruct (Hg Ho) as (Hk & (t & Ht & Hv) & Hb). split; [|exact Hb].
      exists t. split; [|split; [apply Ht|exact Hv]]. destruct Ht as (A & B & C & D). repeat split; try assumption; lia.
  - intros t Ht. destruct (lb_entry N root _ c b d n HI) as [H|(e & [_ Hg] & Hd & Hn & H)]; fold v in H; rewrite H.
    + apply Hcost.
    + apply Hg. eapply allowed_mono; eauto.
  - apply is_optimal_retrieve.
Qed.
Print Assumptions C12_every_history.

(** C12: nothing that was stored gets lost on the way: right after storing a solution it (or
    an earlier one) is found for its own budgets, and with the data set cache also for all
    smaller budgets the solution still fits. *)
Lemma store_found es sol od sn d n db nb T : is_empty sol = false -> sn <= nb <= n -> od <= db <= Nat.min d nb ->
  is_empty (es_retrieve T (es_store es sol od sn d n) db nb) = false.
Proof.
  intros He Hnb Hdb. unfold es_store.
  destruct (existsb (fun e => in_range od sn d n e && e_is db nb e) es) eqn:Ex.
  - apply existsb_exists in Ex. destruct Ex as (e & Hin & H). apply andb_true_iff in H. destruct H as [Hr Hi].
    apply e_is_spec in Hi. destruct Hi as [Hn Hd].
    set (e' := if in_range od sn d n e && negb (e_is_opt e) then e_set_opt e sol else e).
    apply (es_retrieve_some T _ e').
    + apply in_or_app. left. apply in_map_iff. exists e. split; [reflexivity|exact Hin].
    + unfold e'. destruct (_ && _); [reflexivity|exact Hd] || (destruct (_ && _); cbn [e_set_opt e_d]; exact Hd).
    + unfold e'. destruct (_ && _); cbn [e_set_opt e_n]; exact Hn.
    + unfold e'. rewrite Hr. cbn [andb]. destruct (e_is_opt e) eqn:Eo; cbn [negb]; [exact Eo|].
      unfold e_is_opt. cbn [e_set_opt e_opt]. rewrite He. reflexivity.
  - apply (es_retrieve_some T _ (opt_entry db nb sol)); try reflexivity.
    + apply in_or_app. right. apply in_map_iff. exists (db, nb). split; [reflexivity|]. apply filter_In. split.
      * apply in_budgets. lia.
      * cbn [fst snd]. rewrite Ex. reflexivity.
    + unfold e_is_opt, opt_entry. cbn [e_opt]. rewrite He. reflexivity.
Qed.

Theorem C12_found : forall T c v b sol d n, is_empty sol = false -> num_nodes sol <= n ->
  (cc_use_branch c = true -> is_empty (c_retrieve T (c_store c v b sol d n) v b (Nat.min d n) n) = false)
  /\ (cc_use_data c = true -> forall db nb, num_nodes sol <= nb <= n -> Nat.min d (num_nodes sol) <= db <= Nat.min d nb ->
      is_empty (c_retrieve T (c_store c v b sol d n) v b db nb) = false).
Proof.
  intros T c v b sol d n He Hn.
  assert (Hbr : br_eqb b b = true) by (apply br_eqb_eq; reflexivity).
  split.
  - intro Hb. unfold c_retrieve, c_store. rewrite Hb.
    set (c1 := bc_set c b _).
    assert (Eu : cc_use_branch (if cc_use_data c1 then dc_set c1 v (es_store (dc_get c1 v) sol (Nat.min d (num_nodes sol)) (num_nodes sol) d n) else c1) = true).
    { destruct (cc_use_data c1); exact Hb. }
    rewrite Eu.
    assert (Eg : bc_get (if cc_use_data c1 then dc_set c1 v (es_store (dc_get c1 v) sol (Nat.min d (num_nodes sol)) (num_nodes sol) d n) else c1) b
                 = es_store (bc_get c b) sol (Nat.min d n) (num_nodes sol) d n).
    { transitivity (bc_get c1 b); [destruct (cc_use_data c1); reflexivity|]. unfold c1. rewrite bc_get_set. rewrite Hbr. reflexivity. }
    rewrite Eg. rewrite (store_found _ sol _ _ d n (Nat.min d n) n T He); [|lia|lia].
    apply (store_found _ sol _ _ d n (Nat.min d n) n T He); lia.
  - intros Hd db nb Hnb Hdb. unfold c_retrieve. set (c2 := c_store c v b sol d n).
    destruct (is_empty (if cc_use_branch c2 then es_retrieve T (bc_get c2 b) db nb else init_sol T)) eqn:E1; [|exact E1].
    assert (Hu : cc_use_data c2 = true).
    { unfold c2, c_store. destruct (cc_use_branch c); cbn [bc_set cc_use_data]; rewrite Hd; exact Hd. }
    rewrite Hu.
    assert (Eg : exists es, dc_get c2 v = es_store es sol (Nat.min d (num_nodes sol)) (num_nodes sol) d n).
    { unfold c2, c_store. set (c1 := if cc_use_branch c then _ else c).
      assert (H1 : cc_use_data c1 = true) by (unfold c1; destruct (cc_use_branch c); exact Hd).
      rewrite H1. eexists. rewrite dc_get_set.
      assert (R : bits_eqb (dkey (cc_n c1) v) (dkey (cc_n c1) v) = true) by (apply bits_eqb_eq; reflexivity).
      rewrite R. reflexivity. }
    destruct Eg as (es & ->). cbn zeta.
    rewrite (store_found es sol _ _ d n db nb T He Hnb Hdb).
    apply (store_found es sol _ _ d n db nb T He Hnb Hdb).
Qed.
Print Assumptions C12_found.

(** The hypotheses are met: exclusive or.  The tree with three nodes has no errors, so it is
    optimal at the root; a leaf errs once in either half. *)
Definition xor_view : view := mk_view 2 xor_rows.
Definition xor_cost (v : view) (t : tree) : Z := tree_cost (tk_inst acc) v t.
Definition xor_calls : list call :=
  [Raise [0] (value_node 1) 0 0; Store [] (branch_node 0 0 1 1) 2 3; Store [0] (branch_node 1 0 0 0) 1 1; Transfer [0] [0]].
Example c12_ex : ids_ok 4 xor_view /\ (forall v t, 0 <= xor_cost v t)%Z
  /\ Forall (true_fact xor_cost (fun f => f < 2) 1 xor_view) xor_calls
  /\ let c := run_calls acc xor_view (Caches false true true 4 [] []) xor_calls in
     c_retrieve acc c xor_view [] 2 3 = branch_node 0 0 1 1
     /\ c_is_optimal c (restrict [0] xor_view) [0] 1 1 = true
     /\ c_lb c (restrict [0] xor_view) [0] 0 0 <> init_lb.
Proof.
  split; [|split; [|split]].
  - split.
    + vm_compute. repeat (apply NoDup_cons; [cbn; lia|]). apply NoDup_nil.
    + intros x H. vm_compute in H. repeat (destruct H as [<-|H]; [cbn; lia|]). contradiction.
  - intros v t. unfold xor_cost. rewrite tree_cost_vsum. apply vsum_nonneg. intros j x _. cbn. destruct (j =? _); lia.
  - assert (NN : forall v t, (0 <= xor_cost v t)%Z).
    { intros v t. unfold xor_cost. rewrite tree_cost_vsum. apply vsum_nonneg. intros j x _. cbn. destruct (j =? _); lia. }
    assert (NN0 : forall v d n, bounds xor_cost (fun f => f < 2) 1 v d n 0) by (intros v d n t _; apply NN).
    repeat (apply Forall_cons; [|]); try apply Forall_nil.
    + intros t (Hf & _ & Hd & _). destruct t as [l|f l r]; [|cbn in Hd; lia].
      cbn [fits] in Hf. change (length (restrict [0] xor_view)) with 2 in Hf.
      destruct l as [|[|l]]; [vm_compute; discriminate|vm_compute; discriminate|lia].
    + split; [reflexivity|]. split; [cbn; lia|]. split; [|apply NN0].
      exists (Split 0 (Split 1 (Leaf 0) (Leaf 1)) (Split 1 (Leaf 1) (Leaf 0))). split; [|reflexivity].
      unfold allowed. cbn. lia.
    + split; [reflexivity|]. split; [cbn; lia|]. split; [|apply NN0].
      exists (Split 1 (Leaf 0) (Leaf 1)). split; [|reflexivity]. unfold allowed. cbn. lia.
    + reflexivity.
  - vm_compute. repeat split; discriminate || reflexivity.
Qed.
