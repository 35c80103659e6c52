(** C11: keys of the dataset cache and the iterator memo. *)
From Coq Require Import List Arith Bool NArith ZArith Lia Permutation.
From Verif Require Import Model_FeatureVector Model_Data Model_Node Model_Cache Model_Bitset Model_DatasetIter
  Proofs_View Proofs_Cache Proofs_Bitset Props_Bitset Spec_Examples.
Import ListNotations.

(** A view of a data set with [n] instances: every instance at most once. *)
Definition view_ok (n : nat) (v : view) : Prop := NoDup (map iid (concat v)) /\ forall x, In x (concat v) -> iid x < n.
(** The same instances, whatever their order. *)
Definition same_instances (v1 v2 : view) : Prop := forall i, In i (map iid (concat v1)) <-> In i (map iid (concat v2)).

Lemma dkey_mem n v i : i < n -> nth i (dkey n v) false = existsb (fun x => iid x =? i) (concat v).
Proof.
  intro H. unfold dkey. rewrite (nth_indep _ false (existsb (fun x => iid x =? 0) (concat v))) by (rewrite map_length, seq_length; exact H).
  rewrite (map_nth (fun i => existsb (fun x => iid x =? i) (concat v))), seq_nth by exact H. reflexivity.
Qed.
Lemma mem_ids v i : existsb (fun x => iid x =? i) (concat v) = true <-> In i (map iid (concat v)).
Proof.
  rewrite existsb_exists, in_map_iff. split; intros (x & H1 & H2).
  - exists x. apply Nat.eqb_eq in H2. auto.
  - exists x. split; [exact H2|]. apply Nat.eqb_eq. exact H1.
Qed.
Lemma dkey_same n v1 v2 : view_ok n v1 -> view_ok n v2 -> (dkey n v1 = dkey n v2 <-> same_instances v1 v2).
Proof.
  intros [_ L1] [_ L2]. split.
  - intros E i. rewrite <- !mem_ids. destruct (le_lt_dec n i) as [H|H].
    + split; intro Q; exfalso; apply mem_ids in Q; apply in_map_iff in Q; destruct Q as (x & <- & Hx); [apply L1 in Hx|apply L2 in Hx]; lia.
    + rewrite <- !(dkey_mem n) by exact H. rewrite E. reflexivity.
  - intro S. unfold dkey. apply map_ext. intro i. specialize (S i). rewrite <- !mem_ids in S.
    destruct (existsb _ (concat v1)), (existsb _ (concat v2)); try reflexivity; destruct S as [S1 S2]; [specialize (S1 eq_refl)|specialize (S2 eq_refl)]; congruence.
Qed.
Lemma same_size n v1 v2 : view_ok n v1 -> view_ok n v2 -> same_instances v1 v2 -> vsize v1 = vsize v2.
Proof.
  intros [N1 _] [N2 _] S. unfold vsize. rewrite <- !(map_length iid). apply Permutation_length, NoDup_Permutation; assumption.
Qed.

Lemma set_all_run w ids b : bs_set_all w ids b = fold_left (bs_step w) (map SetOp ids) (Some b).
Proof.
  revert b. induction ids as [|i ids IH]; intro b; [reflexivity|]. cbn [bs_set_all map fold_left bs_step]. destruct (bs_set w i b) as [b'|]; [apply IH|].
  clear. induction ids as [|i ids IH]; [reflexivity|]. exact IH.
Qed.
Lemma set_after_sets ids j : set_after (map SetOp ids) j = existsb (Nat.eqb j) ids.
Proof.
  unfold set_after. assert (G : forall c, fold_left (set_step j) (map SetOp ids) c = c || existsb (Nat.eqb j) ids).
  { induction ids as [|i ids IH]; intro c; cbn [map fold_left existsb]; [rewrite orb_false_r; reflexivity|]. rewrite IH. cbn [set_step].
    destruct (j =? i), c; reflexivity. }
  apply G.
Qed.

(** C11: the keys of two views of one data set always exist, and compare equal exactly when
    the views hold the same instances; this is also how Model_Cache compares them. *)
Theorem C11_keys : forall w n v1 v2, 0 < w -> 0 < n -> view_ok n v1 -> view_ok n v2 ->
  exists k1 k2 e, vb_make w n v1 = Some k1 /\ vb_make w n v2 = Some k2 /\ vb_eq k1 k2 = Some e
    /\ (e = true <-> same_instances v1 v2) /\ e = bits_eqb (dkey n v1) (dkey n v2).
Proof.
  intros w n v1 v2 Hw Hn O1 O2.
  assert (B : forall v, view_ok n v -> exists b, vb_make w n v = Some (vsize v, b) /\ bs_run w n (map SetOp (map iid (concat v))) = Some b
    /\ (forall o, In o (map SetOp (map iid (concat v))) -> op_index o < n)).
  { intros v [_ L]. assert (Ho : forall o, In o (map SetOp (map iid (concat v))) -> op_index o < n).
    { intros o H. apply in_map_iff in H. destruct H as (i & <- & H). apply in_map_iff in H. destruct H as (x & <- & H). apply L. exact H. }
    destruct (bs_run_ok w n _ Hw Hn Ho) as (b & E & _). exists b. split; [|split; [exact E|exact Ho]].
    unfold vb_make. unfold bs_run in E. destruct (bs_make w n) as [b0|] eqn:M; [|unfold bs_make in M; destruct n; [lia|discriminate]].
    rewrite set_all_run, E. reflexivity. }
  destruct (B v1 O1) as (b1 & E1 & R1 & I1). destruct (B v2 O2) as (b2 & E2 & R2 & I2).
  destruct (C28_equality w n _ _ b1 b2 Hw Hn I1 I2 R1 R2) as [Q1 Q2].
  assert (SA : (forall j, j < n -> set_after (map SetOp (map iid (concat v1))) j = set_after (map SetOp (map iid (concat v2))) j) <-> same_instances v1 v2).
  { assert (EB : forall v j, existsb (Nat.eqb j) (map iid (concat v)) = true <-> In j (map iid (concat v))).
    { intros v j. rewrite existsb_exists. split; [intros (x & Hx & E); apply Nat.eqb_eq in E; subst; exact Hx|]. intro H. exists j. split; [exact H|apply Nat.eqb_refl]. }
    split.
    - intros H i. rewrite <- !EB. destruct (le_lt_dec n i) as [L|L]; [|rewrite <- !set_after_sets, H by exact L; reflexivity].
      split; intro Q; exfalso; apply EB in Q; apply in_map_iff in Q; destruct Q as (x & <- & Hx); [apply O1 in Hx|apply O2 in Hx]; lia.
    - intros H j _. rewrite !set_after_sets. specialize (H j). rewrite <- !EB in H.
      destruct (existsb _ (map iid (concat v1))), (existsb _ (map iid (concat v2))); try reflexivity; destruct H as [H1 H2]; [specialize (H1 eq_refl)|specialize (H2 eq_refl)]; congruence. }
  exists (vsize v1, b1), (vsize v2, b2), (bits_eqb (dkey n v1) (dkey n v2)).
  assert (KE : bits_eqb (dkey n v1) (dkey n v2) = true <-> same_instances v1 v2) by (rewrite bits_eqb_eq; apply dkey_same; assumption).
  split; [exact E1|]. split; [exact E2|]. split; [|split; [exact KE|reflexivity]].
  unfold vb_eq. cbn [fst snd]. destruct (bits_eqb (dkey n v1) (dkey n v2)) eqn:E.
  - pose proof (proj1 KE eq_refl) as S. rewrite (same_size n v1 v2 O1 O2 S), Nat.eqb_refl. apply Q1, SA, S.
  - destruct (vsize v1 =? vsize v2); [|reflexivity].
    destruct (bs_eq b1 b2) as [[|]|] eqn:F; [|reflexivity|].
    + exfalso. pose proof (proj1 Q1 eq_refl) as H. apply SA, KE in H. discriminate.
    + exfalso. destruct (bs_run_ok w n _ Hw Hn I1) as (c1 & F1 & L1 & _). destruct (bs_run_ok w n _ Hw Hn I2) as (c2 & F2 & L2 & _).
      assert (c1 = b1) by congruence. assert (c2 = b2) by congruence. subst. destruct (bs_eq_iff w Hw b1 b2 ltac:(congruence)) as [[X _]|[X _]]; congruence.
Qed.
Print Assumptions C11_keys.

(** The relation between the slots with memo and the plain map. *)
Section Memo.
  Context (T : task) (n : nat) (data : branch -> view).
  Definition right_iter (b : branch) (m : list (list bool * list entry)) : option (list bool) :=
    match alookup bits_eqb (dkey n (data b)) m with Some _ => Some (dkey n (data b)) | None => None end.
  Record related (st : slots) (m : list (list bool * list entry)) : Prop := Related {
    re_map : forall v, view_ok n v -> alookup bits_eqb (dkey n v) (sl_map (st (vsize v))) = alookup bits_eqb (dkey n v) m;
    re_memo : forall s e, In e (sl_memo (st s)) -> vsize (data (mm_branch e)) = s -> view_ok n (data (mm_branch e)) ->
      mm_gen e = sl_gen (st s) /\ mm_iter e = right_iter (mm_branch e) (sl_map (st s));
    re_size : forall s e, In e (sl_memo (st s)) -> vsize (data (mm_branch e)) = s /\ view_ok n (data (mm_branch e)) }.

  Lemma key_size v1 v2 : view_ok n v1 -> view_ok n v2 -> dkey n v1 = dkey n v2 -> vsize v1 = vsize v2.
  Proof. intros O1 O2 E. apply (same_size n); try assumption. apply (dkey_same n); assumption. Qed.

  Lemma memo_step st m v b o : related st m -> v = data b -> view_ok n v ->
    exists st', dc_step T n v b o st = Some (fst (plain_step T n v o m), st') /\ related st' (snd (plain_step T n v o m)).
  Proof.
    intros HR Ev Ov. destruct HR as [R1 R2 R3].
    (* the iterator found is the right one *)
    assert (F : exists x, find_iter (st (vsize v)) (dkey n v) b = Some (right_iter b (sl_map (st (vsize v))), x)
      /\ sl_map x = sl_map (st (vsize v)) /\ sl_gen x = sl_gen (st (vsize v))
      /\ forall e, In e (sl_memo x) -> In e (sl_memo (st (vsize v))) \/ e = Memo b (right_iter b (sl_map (st (vsize v)))) (sl_gen (st (vsize v)))).
    { unfold find_iter. destruct (find (fun mm => br_eqb (mm_branch mm) b) (sl_memo (st (vsize v)))) as [e|] eqn:Ef.
      - apply find_some in Ef. destruct Ef as [Hin Hb]. apply br_eqb_eq in Hb. rewrite <- Hb in Ev.
        destruct (R2 (vsize v) e Hin) as [G I]; [rewrite <- Ev; reflexivity|rewrite <- Ev; exact Ov|].
        rewrite G, Nat.eqb_refl, I, Hb. eexists. split; [reflexivity|]. auto.
      - eexists. split; [unfold right_iter; rewrite <- Ev; reflexivity|]. cbn [sl_map sl_gen sl_memo]. split; [reflexivity|]. split; [reflexivity|].
        intros e [He|He]; [right; subst e; unfold right_iter; rewrite <- Ev; reflexivity|]. left. destruct (sl_memo (st (vsize v))) as [|e0 l]; [destruct He|].
        destruct He as [->|[]]. left. reflexivity. }
    destruct F as (x & Ex & Xm & Xg & Xe). unfold dc_step. rewrite Ex.
    assert (Xok : forall e, In e (sl_memo x) -> vsize (data (mm_branch e)) = vsize v /\ view_ok n (data (mm_branch e))
      /\ mm_gen e = sl_gen x /\ mm_iter e = right_iter (mm_branch e) (sl_map x)).
    { intros e He. destruct (Xe e He) as [H| ->].
      - destruct (R3 (vsize v) e H) as [S1 S2]. destruct (R2 (vsize v) e H S1 S2) as [G I]. rewrite Xm, Xg. auto.
      - cbn [mm_branch mm_gen mm_iter]. rewrite <- Ev, Xm, Xg. auto. }
    assert (Upd : forall x' m', (forall u, view_ok n u -> vsize u = vsize v -> alookup bits_eqb (dkey n u) (sl_map x') = alookup bits_eqb (dkey n u) m') ->
      (forall u, view_ok n u -> vsize u <> vsize v -> alookup bits_eqb (dkey n u) m' = alookup bits_eqb (dkey n u) m) ->
      (forall e, In e (sl_memo x') -> vsize (data (mm_branch e)) = vsize v /\ view_ok n (data (mm_branch e)) /\ mm_gen e = sl_gen x' /\ mm_iter e = right_iter (mm_branch e) (sl_map x')) ->
      related (set_slot (vsize v) x' st) m').
    { intros x' m' U1 U2 U3. split.
      - intros u Ou. unfold set_slot. destruct (vsize u =? vsize v) eqn:E.
        + apply U1; [exact Ou|apply Nat.eqb_eq; exact E].
        + apply Nat.eqb_neq in E. rewrite R1, U2 by assumption. reflexivity.
      - intros s e He Hs Hok. unfold set_slot in *. destruct (s =? vsize v) eqn:E; [apply U3; exact He|apply R2; assumption].
      - intros s e He. unfold set_slot in He. destruct (s =? vsize v) eqn:E; [apply Nat.eqb_eq in E; subst s; split; apply U3; exact He|apply R3; exact He]. }
    assert (KS : forall u, view_ok n u -> vsize u <> vsize v -> bits_eqb (dkey n u) (dkey n v) = false).
    { intros u Ou Hne. destruct (bits_eqb _ _) eqn:E; [|reflexivity]. apply bits_eqb_eq in E. exfalso. apply Hne, key_size; assumption. }
    unfold right_iter. rewrite <- Ev. unfold plain_step. cbn [fst snd].
    assert (Ea : aget bits_eqb (dkey n v) m = match alookup bits_eqb (dkey n v) (sl_map (st (vsize v))) with Some es => es | None => [] end) by (unfold aget; rewrite <- (R1 v Ov); reflexivity).
    rewrite Ea. rewrite <- (R1 v Ov). clear Ea.
    destruct (alookup bits_eqb (dkey n v) (sl_map (st (vsize v)))) as [es|] eqn:El.
    - assert (Eg : aget bits_eqb (dkey n v) (sl_map x) = es) by (unfold aget; rewrite Xm, El; reflexivity). rewrite Eg.
      eexists. split; [reflexivity|]. destruct (op_write T es o) as [es'|].
      + apply Upd; cbn [sl_map sl_gen sl_memo].
        * intros u Ou Hs. rewrite !(alookup_aset bits_eqb bits_eqb_eq). destruct (bits_eqb _ _); [reflexivity|]. rewrite Xm, <- Hs. apply R1. exact Ou.
        * intros u Ou Hs. rewrite (alookup_aset bits_eqb bits_eqb_eq), KS by assumption. reflexivity.
        * intros e He. destruct (Xok e He) as (A & B & C & D). split; [exact A|]. split; [exact B|]. split; [exact C|]. rewrite D. unfold right_iter.
          rewrite (alookup_aset bits_eqb bits_eqb_eq). destruct (bits_eqb (dkey n (data (mm_branch e))) (dkey n v)) eqn:Eb; [|reflexivity].
          apply bits_eqb_eq in Eb. rewrite Eb, Xm, El. reflexivity.
      + apply Upd.
        * intros u Ou Hs. rewrite Xm, <- Hs. apply R1. exact Ou.
        * reflexivity.
        * exact Xok.
    - eexists. split; [reflexivity|]. destruct (op_write T [] o) as [es'|].
      + unfold insert_slot. rewrite Xm, El. apply Upd; cbn [sl_map sl_gen sl_memo].
        * intros u Ou Hs. rewrite !(alookup_aset bits_eqb bits_eqb_eq). destruct (bits_eqb _ _); [reflexivity|]. rewrite <- Hs. apply R1. exact Ou.
        * intros u Ou Hs. rewrite (alookup_aset bits_eqb bits_eqb_eq), KS by assumption. reflexivity.
        * intros e [].
      + apply Upd.
        * intros u Ou Hs. rewrite Xm, <- Hs. apply R1. exact Ou.
        * reflexivity.
        * exact Xok.
  Qed.
End Memo.

(** C11: for any sequence of calls in which a branch always comes with the same data (C10),
    the cache with its iterator memo never uses a stale iterator and answers exactly as the
    plain map from data sets to entries. *)
Theorem C11_memo : forall T n (data : branch -> view) calls,
  (forall v b o, In (v, b, o) calls -> v = data b /\ view_ok n v) ->
  dc_run T n calls no_slots = Some (plain_run T n calls []).
Proof.
  intros T n data calls H. assert (R0 : related n data no_slots []) by (split; [reflexivity|intros s e []|intros s e []]).
  revert H R0. generalize no_slots (@nil (list bool * list entry)). induction calls as [|[[v b] o] calls IH]; intros st m H HR; [reflexivity|].
  cbn [dc_run plain_run]. destruct (H v b o (or_introl eq_refl)) as [Ev Ov].
  destruct (memo_step T n data st m v b o HR Ev Ov) as (st' & E & HR'). rewrite E.
  rewrite (IH st' (snd (plain_step T n v o m))); [reflexivity| |exact HR']. intros v0 b0 o0 Hi. apply (H v0 b0 o0). right. exact Hi.
Qed.
Print Assumptions C11_memo.

(** A concrete use: two branches with the same data (feature 0 and 1 are copies), a write
    through one and reads through the other, plus a different set of the same size. *)
Definition ex_data (b : branch) : view :=
  let v := mk_view 2 [([0;0],0); ([0;0],1); ([1;1],1); ([1;1],0)] in
  if br_eqb b [0] then split_left 0 v else if br_eqb b [2] then split_left 1 v else split_right 0 v.
Definition ex_calls : list (view * branch * dc_op) :=
  [(ex_data [0], [0], IsOptimal 1 1); (ex_data [1], [1], UpdateLB (leaf_node 1 1%Z) 1 1); (ex_data [2], [2], Store (leaf_node 0 1%Z) 1 1);
   (ex_data [0], [0], IsOptimal 1 1); (ex_data [0], [0], Retrieve 1 1); (ex_data [1], [1], IsOptimal 1 1); (ex_data [1], [1], RetrieveLB 1 1)].
Example c11_ex : (forall v b o, In (v, b, o) ex_calls -> v = ex_data b /\ view_ok 4 v)
  /\ dc_run acc 4 ex_calls no_slots =
     Some [OBool false; OUnit; OUnit; OBool true; ONode (leaf_node 0 1%Z); OBool false; ONode (leaf_node 1 1%Z)].
Proof.
  split; [|vm_compute; reflexivity]. intros v b o H.
  repeat (destruct H as [H|H]; [injection H as <- <- <-; split; [reflexivity|]; split; [vm_compute; repeat constructor; cbn; intuition discriminate|
    intros x Hx; vm_compute in Hx; repeat (destruct Hx as [<-|Hx]; [cbn; lia|]); destruct Hx]|]). destruct H.
Qed.

(** The hypothesis is needed: when a branch comes back with other data of the same size,
    the memo answers for the old data. *)
Example c11_branch_reused : exists v1 v2, view_ok 4 v1 /\ view_ok 4 v2 /\
  let calls := [(v1, [0], Store (leaf_node 0 1%Z) 1 1); (v1, [0], IsOptimal 1 1); (v2, [0], IsOptimal 1 1)] in
  dc_run acc 4 calls no_slots <> Some (plain_run acc 4 calls []).
Proof.
  exists (ex_data [0]), (ex_data [1]). split; [|split].
  1,2: split; [vm_compute; repeat constructor; cbn; intuition discriminate|
    intros x Hx; vm_compute in Hx; repeat (destruct Hx as [<-|Hx]; [cbn; lia|]); destruct Hx].
  vm_compute. discriminate.
Qed.
