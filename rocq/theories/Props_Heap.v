(** Properties of the feature heap and of the feature orders: C26, C27. *)
From Coq Require Import List Arith Bool Lia QArith Lqa ZArith Sorted Permutation.
From Verif Require Import Model_FeatureVector Model_Data Model_Heap Spec_Examples Proofs_View Proofs_Heap.
Import ListNotations.
Local Open Scope nat_scope.

(** The operations of the heap that keep it a heap, with their preconditions: an increment
    must not be negative, only a present key can be popped, only an absent key re-added. *)
Inductive heap_op := HInc (k : nat) (z : Q) | HPop | HReadd (k : nat).

(** What a user of the heap keeps in mind: the priority of every key and the keys inside. *)
Record shadow := Shadow { sh_val : nat -> Q; sh_in : list nat }.

(** One step on the heap next to the abstract effect; [None] when the precondition fails. *)
Inductive heap_step (n : nat) : heap * shadow -> heap_op -> heap * shadow -> Prop :=
| st_inc h s k z : k < n -> (0 <= z)%Q ->
    heap_step n (h, s) (HInc k z) (heap_increment h k z, Shadow (fun j => if j =? k then (sh_val s j + z)%Q else sh_val s j) (sh_in s))
| st_pop h s : sh_in s <> [] ->
    heap_step n (h, s) HPop (snd (heap_pop h), Shadow (sh_val s) (remove Nat.eq_dec (fst (heap_pop h)) (sh_in s)))
| st_readd h s k : k < n -> ~ In k (sh_in s) ->
    heap_step n (h, s) (HReadd k) (heap_readd h k, Shadow (sh_val s) (k :: sh_in s)).

Inductive heap_run (n : nat) : list heap_op -> heap * shadow -> Prop :=
| run_new : heap_run n [] (heap_new n, Shadow (fun _ => 0%Q) (seq 0 n))
| run_step ops a o b : heap_run n ops a -> heap_step n a o b -> heap_run n (ops ++ [o]) b.

Definition run_inv (n : nat) (a : heap * shadow) : Prop :=
  let (h, s) := a in
  hwf n h /\ heap_order h /\ NoDup (sh_in s) /\ h_end h = length (sh_in s)
  /\ (forall k, In k (sh_in s) -> k < n)
  /\ forall k, k < n -> key_value h k = sh_val s k /\ (key_in h k <-> In k (sh_in s)).

Lemma remove_length_in x l : NoDup l -> In x l -> length (remove Nat.eq_dec x l) = length l - 1.
Proof.
  induction 1 as [|y l Hni Hnd IH]; [intros []|]. intros [->|Hin]; cbn [remove].
  - destruct (Nat.eq_dec x x) as [_|]; [|contradiction]. rewrite notin_remove by exact Hni. cbn. lia.
  - destruct (Nat.eq_dec x y) as [->|]; [contradiction|]. cbn [length]. rewrite IH by exact Hin.
    destruct l; [destruct Hin|cbn; lia].
Qed.
Lemma remove_NoDup x l : NoDup l -> NoDup (remove Nat.eq_dec x l).
Proof.
  induction 1 as [|y l Hni Hnd IH]; cbn [remove]; [constructor|]. destruct (Nat.eq_dec x y); [exact IH|].
  constructor; [|exact IH]. intro H. apply in_remove in H. tauto.
Qed.

Lemma run_inv_holds n ops a : heap_run n ops a -> run_inv n a.
Proof.
  induction 1 as [|ops a o b Hr IH Hs].
  - cbn [run_inv]. split; [apply hwf_new|]. split; [apply new_order|]. cbn [sh_in sh_val]. split; [apply seq_NoDup|].
    split; [rewrite seq_length; reflexivity|]. split; [intros k Hk; apply in_seq in Hk; lia|]. intros k Hk. split.
    + unfold key_value, qget. cbn [heap_new h_val]. apply nth_repeat.
    + unfold key_in, nget. cbn [heap_new h_k2p h_end]. rewrite seq_nth, in_seq by exact Hk. lia.
  - destruct Hs as [h s k z Hk Hz|h s Hne|h s k Hk Hni]; cbn [run_inv] in *;
      destruct IH as (W & Ho & Hnd & He & Hlt & Hkv); cbn [sh_val sh_in].
    + destruct (increment_spec n h k z W Hk) as (J1 & J2 & J3 & J4 & J5).
      split; [exact J1|]. split; [apply J5; assumption|]. split; [exact Hnd|]. split; [congruence|]. split; [exact Hlt|].
      intros j Hj. rewrite J3 by exact Hj. rewrite J4 by exact Hj. destruct (Hkv j Hj) as [V1 V2].
      split; [|exact V2]. destruct (j =? k) eqn:E; [apply Nat.eqb_eq in E; subst; rewrite V1; reflexivity|exact V1].
    + assert (Hpos : 0 < h_end h) by (rewrite He; destruct (sh_in s); [contradiction|cbn; lia]).
      pose proof (pop_spec n h W Hpos) as Hp. destruct (heap_pop h) as [k h']. cbn [fst snd].
      destruct Hp as (P1 & P2 & P3 & P4 & P5 & P6 & P7).
      assert (Hin : In k (sh_in s)) by (apply Hkv; assumption).
      split; [exact P1|]. split; [apply P7; exact Ho|]. split; [apply remove_NoDup; exact Hnd|].
      split; [rewrite remove_length_in by assumption; lia|]. split; [intros j Hj; apply in_remove in Hj; apply Hlt; tauto|].
      intros j Hj. destruct (Hkv j Hj) as [V1 V2]. rewrite P5 by exact Hj. split; [exact V1|]. rewrite P6 by exact Hj.
      rewrite V2. split; [intros [A B]; apply in_in_remove; assumption|intro A; apply in_remove in A; exact A].
    + assert (Hni' : ~ key_in h k) by (rewrite (proj2 (Hkv k Hk)); exact Hni).
      destruct (readd_spec n h k W Hk Hni') as (R1 & R2 & R3 & R4 & R5).
      split; [exact R1|]. split; [apply R5; exact Ho|]. split; [constructor; assumption|]. split; [cbn [length]; lia|].
      split; [intros j [<-|Hj]; [exact Hk|apply Hlt; exact Hj]|].
      intros j Hj. destruct (Hkv j Hj) as [V1 V2]. rewrite R3 by exact Hj. split; [exact V1|]. rewrite R4, V2 by exact Hj.
      cbn [In]. intuition.
Qed.

(** C26. After any sequence of increments, pops and re-insertions, popping everything that is
    left returns each key inside exactly once, in non-increasing order of priority. *)
Theorem C26_pop_all_sorted (n : nat) (ops : list heap_op) (h : heap) (s : shadow) :
  heap_run n ops (h, s) ->
  Permutation (heap_pop_all (h_end h) h) (sh_in s)
  /\ StronglySorted (fun a b => (sh_val s b <= sh_val s a)%Q) (heap_pop_all (h_end h) h).
Proof.
  intro Hr. apply run_inv_holds in Hr. destruct Hr as (W & Ho & Hnd & He & Hlt & Hkv).
  destruct (pop_all_spec n (h_end h) h W eq_refl) as (P1 & P2 & P3). split.
  - apply NoDup_Permutation; [exact P1|exact Hnd|]. intro k. rewrite P2. split.
    + intros [A B]. apply Hkv; assumption.
    + intro A. pose proof (Hlt k A) as Hk. split; [exact Hk|]. apply Hkv; assumption.
  - specialize (P3 Ho). assert (Hl : forall a, In a (heap_pop_all (h_end h) h) -> a < n) by (intros a Ha; apply P2 in Ha; apply Ha).
    revert P3 Hl. generalize (heap_pop_all (h_end h) h). intros l Hs Hl.
    induction Hs as [|a l Hs IHs Hall]; constructor.
    + apply IHs. intros b Hb. apply Hl. right. exact Hb.
    + rewrite Forall_forall in *. intros b Hb. specialize (Hall b Hb).
      rewrite <- (proj1 (Hkv a (Hl a (or_introl eq_refl)))), <- (proj1 (Hkv b (Hl b (or_intror Hb)))). exact Hall.
Qed.
Print Assumptions C26_pop_all_sorted.

(** C26. A single pop returns a key of maximal priority; the recorded positions of the keys
    stay consistent; nothing else changes. *)
Theorem C26_pop_max (n : nat) (ops : list heap_op) (h : heap) (s : shadow) :
  heap_run n ops (h, s) -> sh_in s <> [] ->
  In (fst (heap_pop h)) (sh_in s)
  /\ (forall k, In k (sh_in s) -> (sh_val s k <= sh_val s (fst (heap_pop h)))%Q)
  /\ (forall k, k < n -> nget (h_p2k h) (nget (h_k2p h) k) = k)
  /\ (forall j, 0 < j < h_end h -> (qget (h_val h) j <= qget (h_val h) ((j - 1) / 2))%Q).
Proof.
  intros Hr Hne. apply run_inv_holds in Hr. destruct Hr as (W & Ho & Hnd & He & Hlt & Hkv).
  assert (Hpos : 0 < h_end h) by (rewrite He; destruct (sh_in s); [contradiction|cbn; lia]).
  pose proof (pop_spec n h W Hpos) as Hp. destruct (heap_pop h) as [k h']. cbn [fst].
  destruct Hp as (P1 & P2 & P3 & P4 & P5 & P6 & P7). split; [apply Hkv; assumption|]. split; [|split].
  - intros j Hj. pose proof (Hlt j Hj) as Hjn. destruct (P7 Ho) as [_ Q]. specialize (Q j Hjn (proj2 (proj2 (Hkv j Hjn)) Hj)).
    rewrite (proj1 (Hkv j Hjn)), (proj1 (Hkv k P3)) in Q. exact Q.
  - intros j Hj. apply (hw_key _ _ W). exact Hj.
  - exact Ho.
Qed.
Print Assumptions C26_pop_max.

Example C26_example : exists h s, heap_run 4 [HInc 2 3; HInc 1 5; HPop; HInc 3 4; HReadd 1; HInc 0 1]%Q (h, s)
  /\ heap_pop_all (h_end h) h = [1; 3; 2; 0].
Proof.
  eexists. eexists. split.
  - change [HInc 2 3; HInc 1 5; HPop; HInc 3 4; HReadd 1; HInc 0 1]%Q with
      ((((((([] ++ [HInc 2 3]) ++ [HInc 1 5]) ++ [HPop]) ++ [HInc 3 4]) ++ [HReadd 1]) ++ [HInc 0 1])%Q).
    repeat (eapply run_step; [|econstructor]); try apply run_new; try lia; try (vm_compute; discriminate); try (vm_compute; intuition lia).
  - vm_compute. reflexivity.
Qed.

(** C49. Removing a key from the middle of a heap breaks the heap order: the moved key is only
    sifted down.  Seven keys with priorities 10, 1, 9, 0, 0, 8, 7: after removing key 3 (a child of key 1),
    the last key (priority 7) sits below priority 1. *)
Definition seven : heap :=
  fold_left (fun h p => heap_increment h (fst p) (snd p)) [(0, inject_Z 10); (1, inject_Z 1); (2, inject_Z 9); (5, inject_Z 8); (6, inject_Z 7)] (heap_new 7).
Theorem C49_remove_breaks_order_refuted :
  heap_order seven
  /\ exists j, 0 < j < h_end (heap_remove seven 3)
     /\ (qget (h_val (heap_remove seven 3)) ((j - 1) / 2) < qget (h_val (heap_remove seven 3)) j)%Q.
Proof.
  split.
  - intros j Hj. assert (H : h_end seven = 7) by reflexivity. rewrite H in Hj.
    do 7 (destruct j as [|j]; [try lia; vm_compute; discriminate|]). lia.
  - exists 3. split; [vm_compute; lia|]. vm_compute. reflexivity.
Qed.
Print Assumptions C49_remove_breaks_order_refuted.

(** C49, what does hold of a removal after any history: exactly the removed key leaves, all
    priorities stay, the key reported next is still one with the largest priority; and the
    order is kept exactly when the removed key was at the root or last, or the last key does
    not belong above its new place. *)
Theorem C49_remove_partial : forall n ops h s k, heap_run n ops (h, s) -> In k (sh_in s) ->
  let h' := heap_remove h k in let i := nget (h_k2p h) k in let last := nget (h_p2k h) (h_end h - 1) in
  h_end h' = length (sh_in s) - 1
  /\ (forall j, j < n -> key_value h' j = sh_val s j /\ (key_in h' j <-> In j (sh_in s) /\ j <> k))
  /\ (forall j, In j (sh_in s) -> j <> k -> (sh_val s j <= sh_val s (nget (h_p2k h') 0))%Q)
  /\ ((forall j, 0 < j < h_end h' -> (qget (h_val h') j <= qget (h_val h') ((j - 1) / 2))%Q)
      <-> i = 0 \/ k = last \/ (sh_val s last <= sh_val s (nget (h_p2k h) ((i - 1) / 2)))%Q).
Proof.
  intros n ops h s k Hr Hk. apply run_inv_holds in Hr. destruct Hr as (W & Ho & Hnd & He & Hlt & Hkv).
  pose proof (Hlt k Hk) as Hkn. assert (Hki : key_in h k) by (apply Hkv; assumption).
  destruct (remove_spec n h k W Hkn Hki) as (P1 & P2 & P3 & P4 & P5 & P6). cbn zeta.
  pose proof (hw_end _ _ W) as Hn. unfold key_in in Hki. set (i := nget (h_k2p h) k) in *.
  assert (Val : forall p, p < h_end h -> hval h p = sh_val s (nget (h_p2k h) p)).
  { intros p Hp. destruct (hw_pos _ _ W p ltac:(lia)) as [Q1 Q2]. rewrite <- (proj1 (Hkv _ Q1)). unfold key_value. rewrite Q2. reflexivity. }
  split; [rewrite P2, He; reflexivity|]. split; [|split].
  - intros j Hj. destruct (Hkv j Hj) as [V1 V2]. rewrite P3, P4, V1, V2 by exact Hj. split; [reflexivity|]. reflexivity.
  - intros j Hj Hne. pose proof (Hlt j Hj) as Hjn. destruct (Hkv j Hjn) as [V1 V2].
    assert (Hin : key_in (heap_remove h k) j) by (apply P4; [exact Hjn|]; split; [apply V2; exact Hj|exact Hne]). unfold key_in in Hin. rewrite P2 in Hin.
    destruct (hw_pos _ _ P1 0 ltac:(lia)) as [Q1 Q2]. pose proof (P5 Ho _ Hin) as H.
    assert (R1 : hval (heap_remove h k) (nget (h_k2p (heap_remove h k)) j) = sh_val s j) by (rewrite <- V1, <- (P3 j Hjn); reflexivity).
    assert (R2 : hval (heap_remove h k) 0 = sh_val s (nget (h_p2k (heap_remove h k)) 0)).
    { rewrite <- (proj1 (Hkv _ Q1)), <- (P3 _ Q1). unfold key_value. rewrite Q2. reflexivity. }
    rewrite <- R1, <- R2. exact H.
  - rewrite (P6 Ho). destruct (hw_key _ _ W k Hkn) as [_ K2]. fold i in K2.
    destruct (Nat.eq_dec i 0) as [H0|H0]; [tauto|]. pose proof (parent_less i ltac:(lia)) as Hp.
    rewrite (Val (h_end h - 1)), (Val (parent i)) by lia. unfold parent.
    assert (E : i = h_end h - 1 <-> k = nget (h_p2k h) (h_end h - 1)).
    { split; [intros <-; symmetry; exact K2|]. intro E. destruct (hw_pos _ _ W (h_end h - 1) ltac:(lia)) as [_ Q]. rewrite <- E in Q. exact Q. }
    rewrite E. reflexivity.
Qed.
Print Assumptions C49_remove_partial.

(** A key in the middle whose removal keeps the order. *)
Example C49_example : exists h s, heap_run 4 [HInc 2 3; HInc 1 5; HInc 3 4]%Q (h, s) /\ nget (h_k2p h) 3 = 1 /\ In 3 (sh_in s)
  /\ heap_pop_all 3 (heap_remove h 3) = [1; 2; 0].
Proof.
  eexists. eexists. split; [|split].
  - change [HInc 2 3; HInc 1 5; HInc 3 4]%Q with (((([] ++ [HInc 2 3]) ++ [HInc 1 5]) ++ [HInc 3 4])%Q).
    repeat (eapply run_step; [|econstructor]); try apply run_new; try lia; try (vm_compute; discriminate).
  - vm_compute. reflexivity.
  - vm_compute. split; [intuition lia|reflexivity].
Qed.

(** C27. Both orders list every feature exactly once, for every data set. *)
Theorem C27_orders_are_permutations (nf : nat) (v : view) :
  Permutation (order_in nf v) (seq 0 nf) /\ Permutation (order_gini nf v) (seq 0 nf).
Proof. split; [reflexivity|apply order_gini_perm]. Qed.
Print Assumptions C27_orders_are_permutations.

(** C27. The Gini order is by non-increasing impurity gain on the data at hand (with exact
    arithmetic). *)
Theorem C27_gini_order_by_gain (nf : nat) (v : view) :
  StronglySorted (fun a b => (gini_value v b <= gini_value v a)%Q) (order_gini nf v).
Proof. apply order_gini_sorted. Qed.
Print Assumptions C27_gini_order_by_gain.

Example C27_example :
  let v := mk_view 2 [([0;1;0],0); ([0;1;1],1); ([1;1;0],0); ([0;0;1],0)] in
  map (gini_value v) [0; 1; 2] = [1 # 24; 1 # 24; 1 # 8]%Q /\ order_gini 3 v = [2; 0; 1].
Proof. vm_compute. split; reflexivity. Qed.
