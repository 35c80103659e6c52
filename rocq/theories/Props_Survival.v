(** C38: the baseline hazard. *)
From Coq Require Import List Arith Bool Lia QArith Lqa Sorting.Sorted Permutation Setoid Morphisms.
From Verif Require Import Base_Q Model_Survival.
Import ListNotations.
Local Open Scope nat_scope.

(** * Specification: the Nelson-Aalen estimator *)
(** The rows whose time is at least [s]. *)
Definition at_risk (rows : list srow) (s : Q) : nat := length (filter (fun r => Qle_bool s (fst r)) rows).
(** Every event up to [t] adds one divided by the number at risk at its time. *)
Definition nelson_aalen (rows : list srow) (t : Q) : Q :=
  sumQ (fun r : srow => if snd r && Qle_bool (fst r) t then 1 / qn (at_risk rows (fst r)) else 0)%Q rows.
Definition event_by (rows : list srow) (t : Q) : bool := existsb (fun r => snd r && Qle_bool (fst r) t) rows.
Definition baseline (rows : list srow) (t : Q) : Q := if event_by rows t then nelson_aalen rows t else (1 / qn (length rows + 1))%Q.

(** * Rationals *)
Lemma qle_true a b : Qle_bool a b = true <-> (a <= b)%Q. Proof. apply Qle_bool_iff. Qed.
Lemma qle_false a b : Qle_bool a b = false <-> (b < a)%Q.
Proof. split; [intros H; apply Qnot_le_lt; intros L; apply Qle_bool_iff in L; congruence|]. intros H. apply not_true_is_false. intros L. apply Qle_bool_iff in L. lra. Qed.
Lemma qle_morph a a' b b' : (a == a' -> b == b' -> Qle_bool a b = Qle_bool a' b')%Q.
Proof. intros A B. destruct (Qle_bool a' b') eqn:E; [apply qle_true in E; apply qle_true; lra|apply qle_false in E; apply qle_false; lra]. Qed.

(** * The tally *)
Definition key (e : Q * (nat * nat)) : Q := fst e.
Definition cens (e : Q * (nat * nat)) : nat := fst (snd e).
Definition dead (e : Q * (nat * nat)) : nat := snd (snd e).
Definition proper (g : Q -> Q) : Prop := forall a b, (a == b -> g a == g b)%Q.
Lemma tally_add_dead g r tl : proper g -> (sumQ (fun e => qn (dead e) * g (key e)) (tally_add r tl) == sumQ (fun e => qn (dead e) * g (key e)) tl + (if snd r then g (fst r) else 0))%Q.
Proof.
  intros P. induction tl as [|[s [c d]] tl IH]; cbn [tally_add sumQ].
  - unfold dead, key. destruct (snd r); cbn [fst snd]; change (qn 0) with 0%Q; change (qn 1) with 1%Q; lra.
  - destruct (Qeq_bool s (fst r)) eqn:E; cbn [sumQ].
    + apply Qeq_bool_eq in E. pose proof (P _ _ E) as G. unfold dead, key. destruct (snd r); cbn [fst snd]; [rewrite qn_S, G; ring|ring].
    + rewrite IH. ring.
Qed.
Lemma tally_dead g (rows : list srow) : proper g -> (sumQ (fun e => qn (dead e) * g (key e)) (tally rows) == sumQ (fun r : srow => if snd r then g (fst r) else 0) rows)%Q.
Proof.
  intros P. unfold tally. assert (G : forall tl, (sumQ (fun e => qn (dead e) * g (key e)) (fold_left (fun tl r => tally_add r tl) rows tl) == sumQ (fun e => qn (dead e) * g (key e)) tl + sumQ (fun r : srow => if snd r then g (fst r) else 0) rows)%Q).
  { induction rows as [|r rows IH]; intros tl; cbn [fold_left sumQ]; [lra|]. rewrite IH, (tally_add_dead g r tl P). lra. }
  rewrite G. cbn. lra.
Qed.
Definition risk_at (tl : tally_t) (s : Q) : nat := fold_right (fun e a => (if Qle_bool s (key e) then dead e + cens e else 0) + a) 0 tl.
Lemma tally_add_risk r tl s : risk_at (tally_add r tl) s = risk_at tl s + (if Qle_bool s (fst r) then 1 else 0).
Proof.
  induction tl as [|[k [c d]] tl IH]; cbn [tally_add risk_at fold_right].
  - unfold dead, cens, key. destruct (snd r); cbn [fst snd]; destruct (Qle_bool _ _); lia.
  - destruct (Qeq_bool k (fst r)) eqn:E; cbn [risk_at fold_right].
    + apply Qeq_bool_eq in E. rewrite (qle_morph s s (fst r) k) by (try reflexivity; lra). unfold dead, cens, key. destruct (snd r); cbn [fst snd]; destruct (Qle_bool s k); lia.
    + fold (risk_at (tally_add r tl) s). rewrite IH. fold (risk_at tl s). lia.
Qed.
Lemma tally_risk rows s : risk_at (tally rows) s = at_risk rows s.
Proof.
  unfold tally, at_risk. assert (G : forall tl, risk_at (fold_left (fun tl r => tally_add r tl) rows tl) s = risk_at tl s + length (filter (fun r => Qle_bool s (fst r)) rows)).
  { induction rows as [|r rows IH]; intros tl; cbn [fold_left filter]; [cbn; lia|]. rewrite IH, tally_add_risk. destruct (Qle_bool s (fst r)); cbn [length]; lia. }
  apply G.
Qed.
(** keys are pairwise different, and come from rows *)
Lemma tally_add_keys r tl e : In e (tally_add r tl) -> (key e == fst r)%Q \/ exists e', In e' tl /\ key e' = key e.
Proof.
  induction tl as [|[s [c d]] tl IH]; cbn [tally_add].
  - intros [<-|[]]. left. reflexivity.
  - destruct (Qeq_bool s (fst r)) eqn:E; intros [<-|I].
    + right. exists (s, (c, d)). split; [now left|reflexivity].
    + right. exists e. split; [now right|reflexivity].
    + right. exists (s, (c, d)). split; [now left|reflexivity].
    + destruct (IH I) as [A|(e' & A & B)]; [now left|right]. exists e'. split; [now right|exact B].
Qed.
Definition distinct (tl : tally_t) : Prop := ForallOrdPairs (fun a b => ~ (key a == key b)%Q) tl.
Lemma tally_add_distinct r tl : distinct tl -> distinct (tally_add r tl).
Proof.
  unfold distinct. induction tl as [|[s [c d]] tl IH]; intros D; cbn [tally_add]; [constructor; [constructor|constructor]|]. inversion D as [|? ? F D']; subst.
  destruct (Qeq_bool s (fst r)) eqn:E; constructor.
  - exact F.
  - exact D'.
  - rewrite Forall_forall in *. intros e I. destruct (tally_add_keys _ _ _ I) as [A|(e' & A & B)].
    + unfold key at 1. cbn. intros Q. apply Qeq_bool_neq in E. apply E. rewrite Q. exact A.
    + rewrite <- B. apply F. exact A.
  - apply IH, D'.
Qed.
Lemma tally_distinct rows : distinct (tally rows).
Proof. unfold tally. assert (G : forall tl, distinct tl -> distinct (fold_left (fun tl r => tally_add r tl) rows tl)) by (induction rows as [|r rows IH]; intros tl D; cbn; [exact D|apply IH, tally_add_distinct, D]). apply G. constructor. Qed.
Lemma tally_from rows e : In e (tally rows) -> exists r, In r rows /\ (key e == fst r)%Q.
Proof.
  unfold tally. assert (G : forall tl, In e (fold_left (fun tl r => tally_add r tl) rows tl) -> (exists r, In r rows /\ key e == fst r)%Q \/ exists e', In e' tl /\ key e' = key e).
  { induction rows as [|r rows IH]; intros tl; cbn [fold_left]; [intros I; right; eauto|]. intros I. destruct (IH _ I) as [(r' & A & B)|(e' & A & B)]; [left; exists r'; split; [now right|exact B]|].
    destruct (tally_add_keys _ _ _ A) as [C|(e2 & C & D)]; [left; exists r; split; [now left|rewrite <- B; exact C]|right; exists e2; split; [exact C|congruence]]. }
  intros I. destruct (G [] I) as [H|(e' & [] & _)]. exact H.
Qed.
(** a time with a death is a time of an event row *)
Lemma tally_add_dead_in r tl e : In e (tally_add r tl) -> 0 < dead e -> ((key e == fst r)%Q /\ snd r = true) \/ exists e', In e' tl /\ key e' = key e /\ 0 < dead e'.
Proof.
  induction tl as [|[s [c d]] tl IH]; cbn [tally_add].
  - intros [<-|[]] D. left. unfold dead, key in *. destruct (snd r); cbn in *; [split; reflexivity|lia].
  - destruct (Qeq_bool s (fst r)) eqn:E; intros [<-|I] D.
    + unfold dead in D. cbn in D. destruct (snd r) eqn:S; cbn in D.
      * left. split; [apply Qeq_bool_eq; exact E|reflexivity].
      * right. exists (s, (c, d)). repeat split; [now left|exact D].
    + right. exists e. repeat split; [now right|exact D].
    + right. exists (s, (c, d)). repeat split; [now left|exact D].
    + destruct (IH I D) as [A|(e' & A & B & C)]; [now left|right]. exists e'. repeat split; [now right|exact B|exact C].
Qed.
Lemma tally_dead_from rows e : In e (tally rows) -> 0 < dead e -> exists r, In r rows /\ snd r = true /\ (key e == fst r)%Q.
Proof.
  unfold tally. assert (G : forall tl, In e (fold_left (fun tl r => tally_add r tl) rows tl) -> 0 < dead e -> (exists r, In r rows /\ snd r = true /\ key e == fst r)%Q \/ exists e', In e' tl /\ key e' = key e /\ 0 < dead e').
  { induction rows as [|r rows IH]; intros tl; cbn [fold_left]; [intros I D; right; eauto|]. intros I D. destruct (IH _ I D) as [(r' & A & B & C)|(e' & A & B & C)]; [left; exists r'; repeat split; [now right|exact B|exact C]|].
    destruct (tally_add_dead_in _ _ _ A C) as [[E F]|(e2 & E & F & H)]; [left; exists r; repeat split; [now left|exact F|rewrite <- B; exact E]|right; exists e2; repeat split; [exact E|congruence|exact H]]. }
  intros I D. destruct (G [] I D) as [H|(e' & [] & _)]. exact H.
Qed.

(** * Sorting *)
Lemma time_insert_perm e l : Permutation (time_insert e l) (e :: l).
Proof. induction l as [|y l IH]; cbn [time_insert]; [reflexivity|]. destruct (Qle_bool _ _); [reflexivity|]. rewrite IH. apply perm_swap. Qed.
Lemma time_sort_perm l : Permutation (time_sort l) l.
Proof. induction l as [|x l IH]; cbn [time_sort fold_right]; [reflexivity|]. fold (time_sort l). rewrite time_insert_perm, IH. reflexivity. Qed.
Definition before (a b : Q * (nat * nat)) : Prop := (key a < key b)%Q.
Lemma time_insert_sorted e l : Forall (fun x => ~ (key e == key x)%Q) l -> StronglySorted before l -> StronglySorted before (time_insert e l).
Proof.
  induction l as [|y l IH]; intros D S; cbn [time_insert]; [constructor; [constructor|constructor]|]. inversion D; subst. inversion S; subst. destruct (Qle_bool (fst e) (fst y)) eqn:E.
  - apply qle_true in E. assert (L : before e y) by (unfold before, key in *; lra). constructor; [exact S|]. constructor; [exact L|]. rewrite Forall_forall in *. intros z Z. specialize (H4 z Z). unfold before in *. lra.
  - apply qle_false in E. constructor; [apply IH; assumption|]. apply (Permutation_Forall (Permutation_sym (time_insert_perm e l))). constructor; [exact E|assumption].
Qed.
Lemma time_sort_sorted l : distinct l -> StronglySorted before (time_sort l).
Proof.
  induction 1 as [|x l F D IH]; cbn [time_sort fold_right]; [constructor|]. fold (time_sort l). apply time_insert_sorted; [|exact IH]. apply (Permutation_Forall (Permutation_sym (time_sort_perm l))), F.
Qed.

(** * The table *)
Definition risk (tl : tally_t) : nat := fold_right (fun e a => (dead e + cens e) + a) 0 tl.
Fixpoint cum (tl : tally_t) (t : Q) : Q :=
  match tl with [] => 0%Q | e :: tl' => if Qle_bool (key e) t then (qn (dead e) / qn (risk tl) + cum tl' t)%Q else 0%Q end.
Fixpoint last_le (v0 : Q) (kv : list (Q * Q)) (t : Q) : Q :=
  match kv with [] => v0 | (k, v) :: kv' => if Qle_bool k t then last_le v kv' t else v0 end.
Definition death_by (tl : tally_t) (t : Q) : bool := existsb (fun e => Qle_bool (key e) t && (0 <? dead e)) tl.
Lemma loop_keys tl : forall s n p, In p (haz_loop s n tl) -> exists e, In e tl /\ fst p = key e /\ 0 < dead e.
Proof.
  induction tl as [|[t [c d]] tl IH]; intros s n p; cbn [haz_loop]; [intros []|]. destruct (d =? 0) eqn:E.
  - intros I. destruct (IH _ _ _ I) as (e & A & B). exists e. split; [now right|exact B].
  - apply Nat.eqb_neq in E. intros [<-|I]; [exists (t, (c, d)); repeat split; [now left|unfold dead; cbn; lia]|]. destruct (IH _ _ _ I) as (e & A & B). exists e. split; [now right|exact B].
Qed.
Lemma last_le_none v0 kv t : (forall p, In p kv -> (t < fst p)%Q) -> last_le v0 kv t = v0.
Proof. destruct kv as [|[k v] kv]; intros H; cbn; [reflexivity|]. specialize (H (k, v) (or_introl eq_refl)). cbn in H. apply qle_false in H. rewrite H. reflexivity. Qed.
Lemma cum_none tl t : death_by tl t = false -> (cum tl t == 0)%Q.
Proof.
  induction tl as [|e tl IH]; cbn [cum death_by existsb]; [reflexivity|]. destruct (Qle_bool (key e) t); cbn [andb]; [|reflexivity]. intros H. apply orb_false_iff in H. destruct H as [A B]. apply Nat.ltb_ge in A.
  assert (dead e = 0) as -> by lia. rewrite (IH B). change (qn 0) with 0%Q. unfold Qdiv. lra.
Qed.
Lemma last_le_loop tl : forall s v0 t, StronglySorted before tl -> (last_le v0 (haz_loop s (risk tl) tl) t == if death_by tl t then s + cum tl t else v0)%Q.
Proof.
  induction tl as [|[k [c d]] tl IH]; intros s v0 t S; [reflexivity|]. inversion S as [|? ? S' F]; subst.
  assert (R : risk ((k, (c, d)) :: tl) - (d + c) = risk tl) by (change (risk ((k, (c, d)) :: tl)) with (d + c + risk tl); lia).
  cbn [haz_loop]. rewrite R. set (r := risk ((k, (c, d)) :: tl)). 
  change (death_by ((k, (c, d)) :: tl) t) with ((Qle_bool k t && (0 <? d)) || death_by tl t).
  change (cum ((k, (c, d)) :: tl) t) with (if Qle_bool k t then (qn d / qn r + cum tl t)%Q else 0%Q).
  destruct (Qle_bool k t) eqn:K; cbn [andb].
  - destruct (d =? 0) eqn:D.
    + apply Nat.eqb_eq in D. subst d. change (0 <? 0) with false. cbn [orb]. rewrite IH by exact S'. destruct (death_by tl t); [|reflexivity]. change (qn 0) with 0%Q. unfold Qdiv. lra.
    + apply Nat.eqb_neq in D. assert (D' : (0 <? d) = true) by (apply Nat.ltb_lt; lia). rewrite D'. cbn [orb last_le]. rewrite K, IH by exact S'. destruct (death_by tl t) eqn:B; [lra|]. rewrite (cum_none tl t B). lra.
  - assert (NB : death_by tl t = false).
    { apply qle_false in K. apply not_true_is_false. intros B. apply existsb_exists in B. destruct B as (e & I & E). apply andb_prop in E. destruct E as [E _]. apply qle_true in E. rewrite Forall_forall in F. specialize (F e I). unfold before, key in *. cbn in F. lra. }
    rewrite NB. cbn [orb]. apply qle_false in K. rewrite last_le_none; [reflexivity|]. intros p I.
    assert (Kp : forall p, In p (haz_loop (s + qn d / qn r)%Q (risk tl) tl) -> (t < fst p)%Q).
    { intros q J. apply loop_keys in J. destruct J as (e & J & E & _). rewrite E. rewrite Forall_forall in F. specialize (F e J). unfold before, key in *. cbn in F. lra. }
    destruct (d =? 0); [apply Kp; exact I|]. destruct I as [<-|I]; [cbn; exact K|apply Kp; exact I].
Qed.
(** the binary search *)
Definition up (kv : list (Q * Q)) : Prop := StronglySorted (fun a b => fst a <= fst b)%Q kv.
Lemma up_nth kv : up kv -> forall i j, i <= j -> j < length kv -> (fst (nth i kv (0, 0)) <= fst (nth j kv (0, 0)))%Q.
Proof.
  induction 1 as [|x kv S IH F]; intros i j L B; cbn in B; [lia|]. destruct i as [|i], j as [|j]; cbn [nth]; [lra| |lia|apply IH; lia]. rewrite Forall_forall in F. apply F, nth_In. lia.
Qed.
Lemma search_spec kv lim : up kv -> forall fuel a b, a <= b -> b < length kv -> b - a <= fuel -> (a = 0 \/ (fst (nth a kv (0, 0)) <= lim)%Q) -> (forall j, b < j -> j < length kv -> (lim < fst (nth j kv (0, 0)))%Q) ->
  let i := haz_search fuel kv lim a b in i < length kv /\ (i = 0 \/ (fst (nth i kv (0, 0)) <= lim)%Q) /\ forall j, i < j -> j < length kv -> (lim < fst (nth j kv (0, 0)))%Q.
Proof.
  intros U. induction fuel as [|fuel IH]; intros a b L B F A Z; cbn [haz_search].
  - assert (a = b) by lia. subst b. auto.
  - destruct (Nat.eqb_spec a b) as [->|N]; [auto|]. set (mid := (a + b + 1) / 2). assert (M1 : a < mid) by (unfold mid; apply Nat.div_le_lower_bound; lia). assert (M2 : mid <= b) by (unfold mid; apply Nat.div_le_upper_bound; lia).
    destruct (Qle_bool _ _) eqn:E.
    + apply qle_true in E. apply IH; [exact M2|exact B|lia|now right|exact Z].
    + apply qle_false in E. apply IH; [lia|lia|lia|exact A|]. intros j J1 J2. eapply Qlt_le_trans; [exact E|]. apply up_nth; [exact U|lia|exact J2].
Qed.
Lemma last_le_index k0 v0 kv lim : up ((k0, v0) :: kv) -> forall i, i < length ((k0, v0) :: kv) -> (i = 0 \/ (fst (nth i ((k0, v0) :: kv) (0, 0)) <= lim)%Q) -> (forall j, i < j -> j < length ((k0, v0) :: kv) -> (lim < fst (nth j ((k0, v0) :: kv) (0, 0)))%Q) ->
  snd (nth i ((k0, v0) :: kv) (0, 0)%Q) = last_le v0 kv lim.
Proof.
  revert k0 v0. induction kv as [|[k v] kv IH]; intros k0 v0 U i B A Z.
  - cbn in B. assert (i = 0) as -> by lia. reflexivity.
  - inversion U as [|? ? U' F]; subst. destruct i as [|i].
    + cbn [nth snd last_le]. specialize (Z 1 ltac:(lia) ltac:(cbn; lia)). cbn in Z. apply qle_false in Z. rewrite Z. reflexivity.
    + cbn [last_le]. destruct A as [A|A]; [lia|]. assert (K : (k <= lim)%Q) by (eapply Qle_trans; [|exact A]; apply (up_nth _ U' 0 i); cbn in *; lia). apply qle_true in K. rewrite K. cbn [nth]. apply IH; [exact U'|cbn in *; lia|right; exact A|].
      intros j J1 J2. apply (Z (S j)); [lia|cbn in *; lia].
Qed.
Lemma haz_at_last k0 v0 kv lim : up ((k0, v0) :: kv) -> haz_at ((k0, v0) :: kv) lim = last_le v0 kv lim.
Proof.
  intros U. unfold haz_at. destruct (search_spec _ lim U (length ((k0, v0) :: kv)) 0 (length ((k0, v0) :: kv) - 1)) as (A & B & C); [lia|cbn; lia|lia|now left|intros j J1 J2; lia|]. apply (last_le_index k0); assumption.
Qed.
Lemma loop_up tl : forall s n, StronglySorted before tl -> up (haz_loop s n tl).
Proof.
  induction tl as [|[t [c d]] tl IH]; intros s n S; cbn [haz_loop]; [constructor|]. inversion S as [|? ? S' F]; subst. destruct (d =? 0); [apply IH, S'|]. constructor; [apply IH, S'|].
  apply Forall_forall. intros p I. apply loop_keys in I. destruct I as (e & I & E & _). rewrite Forall_forall in F. specialize (F e I). rewrite E. unfold before, key in *. cbn in *. lra.
Qed.

(** * The value *)
Lemma risk_total tl s : (forall e, In e tl -> (s <= key e)%Q) -> risk_at tl s = risk tl.
Proof. induction tl as [|e tl IH]; intros H; cbn [risk_at risk fold_right]; [reflexivity|]. fold (risk_at tl s). fold (risk tl). rewrite IH by (intros x I; apply H; now right). assert (E : Qle_bool s (key e) = true) by (apply qle_true, H; now left). rewrite E. lia. Qed.
Lemma risk_app l l' s : risk_at (l ++ l') s = risk_at l s + risk_at l' s.
Proof. induction l as [|e l IH]; cbn [app risk_at fold_right]; [reflexivity|]. fold (risk_at (l ++ l') s). fold (risk_at l s). rewrite IH. lia. Qed.
Lemma risk_zero tl s : (forall e, In e tl -> (key e < s)%Q) -> risk_at tl s = 0.
Proof. induction tl as [|e tl IH]; intros H; cbn [risk_at fold_right]; [reflexivity|]. fold (risk_at tl s). rewrite IH by (intros x I; apply H; now right). assert (E : Qle_bool s (key e) = false) by (apply qle_false, H; now left). rewrite E. lia. Qed.
Lemma cum_sum t tl : forall pre, StronglySorted before tl -> (forall a b, In a pre -> In b tl -> (key a < key b)%Q) ->
  (cum tl t == sumQ (fun e => if Qle_bool (key e) t then qn (dead e) / qn (risk_at (pre ++ tl) (key e)) else 0) tl)%Q.
Proof.
  induction tl as [|e tl IH]; intros pre S P; cbn [cum sumQ]; [reflexivity|]. inversion S as [|? ? S' F]; subst. rewrite Forall_forall in F.
  assert (R : risk_at (pre ++ e :: tl) (key e) = risk (e :: tl)).
  { rewrite risk_app, risk_zero by (intros a A; apply P; [exact A|now left]). apply risk_total. intros x [->|I]; [lra|]. specialize (F x I). unfold before in F. lra. }
  rewrite R. destruct (Qle_bool (key e) t) eqn:K.
  - apply Qplus_comp; [reflexivity|]. rewrite (IH (pre ++ [e])); [|exact S'|].
    + rewrite <- app_assoc. reflexivity.
    + intros a b A B. apply in_app_iff in A. destruct A as [A|[<-|[]]]; [apply P; [exact A|now right]|apply F; exact B].
  - rewrite <- (Qplus_0_l 0) at 1. apply Qplus_comp; [reflexivity|]. symmetry. rewrite (sumQ_ext _ (fun _ => 0%Q)); [clear; induction tl; cbn; lra|]. intros x I. specialize (F x I). unfold before in F. apply qle_false in K.
    assert (Kx : Qle_bool (key x) t = false) by (apply qle_false; lra). rewrite Kx. reflexivity.
Qed.
Lemma risk_perm l l' s : Permutation l l' -> risk_at l s = risk_at l' s.
Proof. unfold risk_at. induction 1; cbn [fold_right]; lia. Qed.
Lemma filter_morph (rows : list srow) s s' : (s == s')%Q -> at_risk rows s = at_risk rows s'.
Proof. intros E. unfold at_risk. f_equal. apply filter_ext. intros r. apply qle_morph; [exact E|reflexivity]. Qed.
Lemma cum_is_na rows t : (cum (time_sort (tally rows)) t == nelson_aalen rows t)%Q.
Proof.
  set (T := time_sort (tally rows)). assert (PT : Permutation T (tally rows)) by apply time_sort_perm. rewrite (cum_sum t T []) by (try (intros a b []); apply time_sort_sorted, tally_distinct). cbn [app].
  set (g := fun s => (if Qle_bool s t then 1 / qn (at_risk rows s) else 0)%Q).
  assert (PG : proper g) by (intros a b E; unfold g; rewrite (qle_morph a b t t E) by reflexivity; rewrite (filter_morph rows a b E); reflexivity).
  rewrite (sumQ_ext _ (fun e => qn (dead e) * g (key e))%Q).
  2:{ intros e _. unfold g. rewrite (risk_perm _ _ _ PT), tally_risk. destruct (Qle_bool (key e) t); [unfold Qdiv; ring|ring]. }
  rewrite (sumQ_perm _ _ _ PT), (tally_dead g rows PG). unfold nelson_aalen, g. apply sumQ_ext. intros r _. destruct (snd r); cbn [andb]; [reflexivity|reflexivity].
Qed.
Lemma risk_all rows : risk (time_sort (tally rows)) = length rows.
Proof.
  assert (P : Permutation (time_sort (tally rows)) (tally rows)) by apply time_sort_perm. unfold risk. assert (E : forall l l', Permutation l l' -> fold_right (fun e a => dead e + cens e + a) 0 l = fold_right (fun e a => dead e + cens e + a) 0 l') by (induction 1; cbn [fold_right]; lia).
  rewrite (E _ _ P). unfold tally. assert (G : forall tl, fold_right (fun e a => dead e + cens e + a) 0 (fold_left (fun tl r => tally_add r tl) rows tl) = fold_right (fun e a => dead e + cens e + a) 0 tl + length rows).
  { clear. induction rows as [|r rows IH]; intros tl; cbn [fold_left length]; [lia|]. rewrite IH. assert (A : fold_right (fun e a => dead e + cens e + a) 0 (tally_add r tl) = S (fold_right (fun e a => dead e + cens e + a) 0 tl)).
    { clear. induction tl as [|[k [c d]] tl IH]; cbn [tally_add fold_right]; [destruct (snd r); reflexivity|]. destruct (Qeq_bool k (fst r)); cbn [fold_right]; [unfold dead, cens; destruct (snd r); cbn [fst snd]; lia|]. rewrite IH. lia. }
    rewrite A. lia. }
  apply G.
Qed.
Lemma death_is_event rows t : death_by (time_sort (tally rows)) t = event_by rows t.
Proof.
  apply eq_true_iff_eq. unfold death_by, event_by. rewrite !existsb_exists. split.
  - intros (e & I & E). apply andb_prop in E. destruct E as [K D]. apply Nat.ltb_lt in D. apply (Permutation_in e (time_sort_perm _)) in I. destruct (tally_dead_from rows e I D) as (r & R & S & Q). exists r. split; [exact R|]. rewrite S. cbn. rewrite <- K. apply qle_morph; [symmetry; exact Q|reflexivity].
  - intros (r & R & E). apply andb_prop in E. destruct E as [S K].
    destruct (existsb (fun e => Qeq_bool (key e) (fst r) && (0 <? dead e)) (tally rows)) eqn:X.
    + apply existsb_exists in X. destruct X as (e & I & E). apply andb_prop in E. destruct E as [E D]. apply Qeq_bool_eq in E. exists e. split; [apply (Permutation_in e (Permutation_sym (time_sort_perm _))), I|]. rewrite (qle_morph (key e) (fst r) t t E) by reflexivity. rewrite K, D. reflexivity.
    + exfalso. (* the deaths at this time would be none, yet the row counts *)
      set (g := fun s => if Qeq_bool s (fst r) then 1%Q else 0%Q).
      assert (PG : proper g). { intros a b E. unfold g. destruct (Qeq_bool a (fst r)) eqn:A, (Qeq_bool b (fst r)) eqn:B; try reflexivity; [apply Qeq_bool_eq in A; apply Qeq_bool_neq in B|apply Qeq_bool_eq in B; apply Qeq_bool_neq in A]; exfalso; [apply B|apply A]; [rewrite <- E; exact A|rewrite E; exact B]. }
      pose proof (tally_dead g rows PG) as T. rewrite (sumQ_ext _ (fun _ => 0%Q)) in T.
      2:{ intros e I. unfold g. destruct (Qeq_bool (key e) (fst r)) eqn:A; [|lra]. assert (Z : dead e = 0). { destruct (dead e) as [|d] eqn:De; [reflexivity|]. exfalso. assert (Y : existsb (fun e => Qeq_bool (key e) (fst r) && (0 <? dead e)) (tally rows) = true) by (apply existsb_exists; exists e; rewrite A, De; split; [exact I|reflexivity]). congruence. } rewrite Z. change (qn 0) with 0%Q. lra. }
      assert (Z0 : (sumQ (fun _ : Q * (nat * nat) => 0) (tally rows) == 0)%Q) by (clear; induction (tally rows); cbn; lra). rewrite Z0 in T.
      assert (POS : (1 <= sumQ (fun r0 : srow => if snd r0 then g (fst r0) else 0) rows)%Q).
      { clear -R S. induction rows as [|x rows IH]; [destruct R|]. cbn [sumQ]. assert (NN : forall l, (0 <= sumQ (fun r0 : srow => if snd r0 then g (fst r0) else 0) l)%Q) by (intros l; apply sumQ_nonneg; intros y _; unfold g; destruct (snd y); [destruct (Qeq_bool (fst y) (fst r))|]; lra).
        destruct R as [->|R]; [|specialize (IH R); assert (0 <= (if snd x then g (fst x) else 0))%Q by (unfold g; destruct (snd x); [destruct (Qeq_bool (fst x) (fst r))|]; lra); lra]. rewrite S. unfold g at 1. assert (E : Qeq_bool (fst r) (fst r) = true) by (apply Qeq_eq_bool; reflexivity). rewrite E. specialize (NN rows). lra. }
      lra.
Qed.
Definition times_ok (rows : list srow) : Prop := Forall (fun r => 0 <= fst r)%Q rows.
Lemma tally_keys_ok rows e : times_ok rows -> In e (time_sort (tally rows)) -> (0 <= key e)%Q.
Proof. intros OK I. apply (Permutation_in e (time_sort_perm _)) in I. apply tally_from in I. destruct I as (r & R & E). unfold times_ok in OK. rewrite Forall_forall in OK. rewrite E. apply OK, R. Qed.
Lemma table_up rows : times_ok rows -> up (haz_table rows).
Proof.
  intros OK. unfold haz_table. constructor; [apply loop_up, time_sort_sorted, tally_distinct|]. apply Forall_forall. intros p I. apply loop_keys in I. destruct I as (e & I & E & _). rewrite E. cbn. apply (tally_keys_ok rows); assumption.
Qed.
Lemma table_last rows v0 t : (last_le v0 (haz_loop 0 (length rows) (time_sort (tally rows))) t == if event_by rows t then nelson_aalen rows t else v0)%Q.
Proof. rewrite <- (risk_all rows). rewrite last_le_loop by (apply time_sort_sorted, tally_distinct). rewrite death_is_event. destruct (event_by rows t); [|reflexivity]. rewrite cum_is_na. lra. Qed.
(** The value the solver uses for time [t] is the estimator at [t + 1e-6]. *)
Theorem C38_value rows t : times_ok rows -> (hazard rows t == baseline rows (t + (1 # 1000000)))%Q.
Proof. intros OK. unfold hazard, baseline. pose proof (table_up rows OK) as U. unfold haz_table in *. rewrite (haz_at_last _ _ _ _ U). apply table_last. Qed.
Lemma sum_same rows l t t' : (forall r, In r l -> snd r = true -> Qle_bool (fst r) t = Qle_bool (fst r) t') ->
  (sumQ (fun r : srow => if snd r && Qle_bool (fst r) t then 1 / qn (at_risk rows (fst r)) else 0) l == sumQ (fun r : srow => if snd r && Qle_bool (fst r) t' then 1 / qn (at_risk rows (fst r)) else 0) l)%Q.
Proof. intros H. apply sumQ_ext. intros r I. specialize (H r I). destruct (snd r); cbn [andb]; [rewrite H by reflexivity; reflexivity|reflexivity]. Qed.
(** It is the estimator at [t] itself when no event falls within 1e-6 after [t]. *)
Theorem C38_exact rows t : times_ok rows -> (forall r, In r rows -> snd r = true -> ~ (t < fst r <= t + (1 # 1000000))%Q) -> (hazard rows t == baseline rows t)%Q.
Proof.
  intros OK G. rewrite C38_value by exact OK. assert (S : forall r, In r rows -> snd r = true -> Qle_bool (fst r) (t + (1 # 1000000)) = Qle_bool (fst r) t).
  { intros r I E. specialize (G r I E). destruct (Qle_bool (fst r) t) eqn:A; [apply qle_true in A; apply qle_true; lra|]. apply qle_false in A. apply qle_false. apply Qnot_le_lt. intros L. apply G. lra. }
  unfold baseline. assert (EV : event_by rows (t + (1 # 1000000)) = event_by rows t).
  { unfold event_by. clear -S. induction rows as [|r rows IH]; cbn; [reflexivity|]. rewrite IH by (intros x I; apply S; now right). f_equal. specialize (S r (or_introl eq_refl)). destruct (snd r); [cbn; apply S; reflexivity|reflexivity]. }
  rewrite EV. destruct (event_by rows t); [|reflexivity]. unfold nelson_aalen. apply sum_same. exact S.
Qed.
(** The estimator in Python is the estimator at [t], for all times from zero on. *)
Theorem C38_python rows t : times_ok rows -> (0 <= t)%Q -> (py_hazard rows t == baseline rows t)%Q.
Proof.
  intros OK T0. pose proof (loop_up (time_sort (tally rows)) 0 (length rows) (time_sort_sorted _ (tally_distinct rows))) as U.
  assert (K0 : forall p, In p (haz_loop 0 (length rows) (time_sort (tally rows))) -> (0 <= fst p)%Q) by (intros p I; apply loop_keys in I; destruct I as (e & I & E & _); rewrite E; apply (tally_keys_ok rows); assumption).
  assert (ST : StronglySorted (fun a b : Q * Q => fst a < fst b)%Q (haz_loop 0 (length rows) (time_sort (tally rows)))).
  { generalize 0%Q. generalize (length rows). pose proof (time_sort_sorted _ (tally_distinct rows)) as S. clear -S. induction S as [|[k [c d]] tl S IH F]; intros n s; cbn [haz_loop]; [constructor|]. destruct (d =? 0); [apply IH|]. constructor; [apply IH|]. apply Forall_forall. intros p I. apply loop_keys in I. destruct I as (e & I & E & _). rewrite Forall_forall in F. specialize (F e I). rewrite E. exact F. }
  pose proof (table_last rows (1 / qn (length rows + 1)) t) as TL. fold (baseline rows t) in TL. unfold py_hazard.
  (* the exact key gives the same value as the search *)
  assert (EX : forall k0 v0 kv, StronglySorted (fun a b : Q * Q => fst a < fst b)%Q ((k0, v0) :: kv) -> (k0 <= t)%Q -> match find (fun e => Qeq_bool (fst e) t) ((k0, v0) :: kv) with Some e => snd e | None => last_le v0 kv t end = last_le v0 kv t).
  { intros k0 v0 kv. revert k0 v0. induction kv as [|[k v] kv IH]; intros k0 v0 S L; cbn [find fst snd].
    - destruct (Qeq_bool k0 t); reflexivity.
    - inversion S as [|? ? S' F]; subst. inversion F as [|? ? F1 F2]; subst. cbn in F1. destruct (Qeq_bool k0 t) eqn:E.
      + apply Qeq_bool_eq in E. cbn [last_le snd]. assert (Z : Qle_bool k t = false) by (apply qle_false; lra). rewrite Z. reflexivity.
      + cbn [last_le]. destruct (Qle_bool k t) eqn:Kt.
        * specialize (IH k v S'). apply qle_true in Kt. specialize (IH Kt). cbn [find fst snd] in IH. exact IH.
        * destruct (Qeq_bool k t) eqn:E2; [apply Qeq_bool_eq in E2; apply qle_false in Kt; lra|]. destruct (find (fun e : Q * Q => Qeq_bool (fst e) t) kv) as [e|] eqn:Fi; [|reflexivity]. apply find_some in Fi. destruct Fi as [I E3]. apply Qeq_bool_eq in E3. inversion S' as [|? ? S'' F']; subst. rewrite Forall_forall in F'. specialize (F' e I). cbn in F'. apply qle_false in Kt. lra. }
  assert (UP : forall (kv : list (Q * Q)), StronglySorted (fun a b : Q * Q => fst a < fst b)%Q kv -> up kv).
  { induction 1 as [|x kv S IH F]; constructor; [exact IH|]. rewrite Forall_forall in *. intros y Y. specialize (F y Y). lra. }
  unfold py_table. destruct (haz_loop 0 (length rows) (time_sort (tally rows))) as [|[k v] rest] eqn:HL.
  - cbn [last_le] in TL. rewrite <- TL. cbn [find fst]. destruct (Qeq_bool 0 t); [reflexivity|]. rewrite haz_at_last by (repeat constructor). reflexivity.
  - destruct (Qeq_bool k 0) eqn:KZ.
    + apply Qeq_bool_eq in KZ. assert (S0 : StronglySorted (fun a b : Q * Q => fst a < fst b)%Q ((0%Q, v) :: rest)).
      { inversion ST as [|? ? S' F]; subst. constructor; [exact S'|]. rewrite Forall_forall in *. intros y Y. specialize (F y Y). cbn in *. lra. }
      rewrite (haz_at_last _ _ _ _ (UP _ S0)). rewrite (EX 0%Q v rest S0 T0). rewrite <- TL. cbn [last_le]. assert (L : Qle_bool k t = true) by (apply qle_true; lra). rewrite L. reflexivity.
    + apply Qeq_bool_neq in KZ. assert (S0 : StronglySorted (fun a b : Q * Q => fst a < fst b)%Q ((0%Q, (1 / qn (length rows + 1))%Q) :: (k, v) :: rest)).
      { constructor; [exact ST|]. rewrite Forall_forall. intros y Y. cbn. pose proof (K0 y Y) as N. destruct Y as [<-|Y]; [cbn in *; lra|]. inversion ST as [|? ? S' F]; subst. rewrite Forall_forall in F. specialize (F y Y). specialize (K0 (k, v) (or_introl eq_refl)). cbn in *. lra. }
      rewrite (haz_at_last _ _ _ _ (UP _ S0)). rewrite (EX 0%Q _ _ S0 T0). exact TL.
Qed.
(** Positive and non-decreasing. *)
Lemma at_risk_pos rows r : In r rows -> 0 < at_risk rows (fst r).
Proof. intros I. unfold at_risk. assert (J : In r (filter (fun x => Qle_bool (fst r) (fst x)) rows)) by (apply filter_In; split; [exact I|apply qle_true; lra]). destruct (filter (fun x => Qle_bool (fst r) (fst x)) rows); [destruct J|cbn; lia]. Qed.
Lemma at_risk_le rows s : at_risk rows s <= length rows.
Proof. unfold at_risk. clear. induction rows as [|r rows IH]; cbn; [lia|]. destruct (Qle_bool s (fst r)); cbn; lia. Qed.
Lemma inv_pos n : 0 < n -> (0 < 1 / qn n)%Q.
Proof. intros H. pose proof (qn_pos n H). apply Qlt_shift_div_l; lra. Qed.
Lemma inv_le n m : 0 < n -> n <= m -> (1 / qn m <= 1 / qn n)%Q.
Proof.
  intros H L. pose proof (qn_pos n H) as P. assert (E : (qn m == qn n + qn (m - n))%Q) by (rewrite <- qn_add; replace (n + (m - n)) with m by lia; reflexivity).
  assert (N : (0 <= qn (m - n))%Q) by (destruct (m - n) as [|k] eqn:Z; [change (qn 0) with 0%Q; lra|apply Qlt_le_weak, qn_pos; lia]).
  apply Qle_shift_div_l; [exact P|]. setoid_replace (1 / qn m * qn n)%Q with (qn n / qn m)%Q by (unfold Qdiv; ring). apply Qle_shift_div_r; lra.
Qed.
Lemma na_event rows t : event_by rows t = true -> (1 / qn (length rows) <= nelson_aalen rows t)%Q.
Proof.
  intros E. apply existsb_exists in E. destruct E as (r & I & E). unfold nelson_aalen.
  assert (G : forall l, In r l -> (forall x, In x l -> In x rows) -> (1 / qn (length rows) <= sumQ (fun r : srow => if snd r && Qle_bool (fst r) t then 1 / qn (at_risk rows (fst r)) else 0) l)%Q).
  { induction l as [|x l IH]; intros J SUB; [destruct J|]. cbn [sumQ]. assert (NN : (0 <= sumQ (fun r : srow => if snd r && Qle_bool (fst r) t then 1 / qn (at_risk rows (fst r)) else 0) l)%Q).
    { apply sumQ_nonneg. intros y Y. destruct (snd y && Qle_bool (fst y) t); [apply Qlt_le_weak, inv_pos, at_risk_pos, SUB; now right|lra]. }
    destruct J as [->|J].
    - rewrite E. pose proof (inv_le (at_risk rows (fst r)) (length rows) (at_risk_pos rows r I) (at_risk_le rows _)). lra.
    - specialize (IH J (fun y Y => SUB y (or_intror Y))). destruct (snd x && Qle_bool (fst x) t); [|lra]. pose proof (inv_pos _ (at_risk_pos rows x (SUB x (or_introl eq_refl)))). lra. }
  apply G; auto.
Qed.
Lemma baseline_pos rows t : (0 < baseline rows t)%Q.
Proof. unfold baseline. destruct (event_by rows t) eqn:E; [|apply inv_pos; lia]. pose proof (na_event rows t E). apply existsb_exists in E. destruct E as (r & I & _). assert (0 < length rows) by (destruct rows; [destruct I|cbn; lia]). pose proof (inv_pos (length rows) H0). lra. Qed.
Lemma baseline_mono rows t t' : (t <= t' -> baseline rows t <= baseline rows t')%Q.
Proof.
  intros L. assert (LE : forall r : srow, Qle_bool (fst r) t = true -> Qle_bool (fst r) t' = true) by (intros r E; apply qle_true in E; apply qle_true; lra).
  unfold baseline. destruct (event_by rows t) eqn:E.
  - assert (E' : event_by rows t' = true) by (apply existsb_exists in E; destruct E as (r & I & E); apply existsb_exists; exists r; split; [exact I|]; apply andb_prop in E; destruct E as [A B]; rewrite A, (LE _ B); reflexivity). rewrite E'. unfold nelson_aalen.
    assert (G : forall l, (forall x, In x l -> In x rows) -> (sumQ (fun r : srow => if snd r && Qle_bool (fst r) t then 1 / qn (at_risk rows (fst r)) else 0) l <= sumQ (fun r : srow => if snd r && Qle_bool (fst r) t' then 1 / qn (at_risk rows (fst r)) else 0) l)%Q).
    { induction l as [|x l IH]; intros SUB; cbn [sumQ]; [lra|]. specialize (IH (fun y Y => SUB y (or_intror Y))). pose proof (inv_pos _ (at_risk_pos rows x (SUB x (or_introl eq_refl)))) as P. destruct (snd x); cbn [andb]; [|lra].
      destruct (Qle_bool (fst x) t) eqn:X; [rewrite (LE _ X); lra|]. destruct (Qle_bool (fst x) t'); lra. }
    apply G. auto.
  - destruct (event_by rows t') eqn:E'; [|lra]. pose proof (na_event rows t' E') as N. apply existsb_exists in E'. destruct E' as (r & I & _). assert (P : 0 < length rows) by (destruct rows; [destruct I|cbn; lia]). pose proof (inv_le (length rows) (length rows + 1) P ltac:(lia)). lra.
Qed.
Theorem C38_positive rows t : times_ok rows -> (0 < hazard rows t)%Q.
Proof. intros OK. rewrite C38_value by exact OK. apply baseline_pos. Qed.
Theorem C38_monotone rows t t' : times_ok rows -> (t <= t')%Q -> (hazard rows t <= hazard rows t')%Q.
Proof. intros OK L. rewrite !C38_value by exact OK. apply baseline_mono. lra. Qed.
(** The solver and Python agree at every time without an event within 1e-6 after it. *)
Theorem C38_agree rows t : times_ok rows -> (0 <= t)%Q -> (forall r, In r rows -> snd r = true -> ~ (t < fst r <= t + (1 # 1000000))%Q) -> (hazard rows t == py_hazard rows t)%Q.
Proof. intros OK T G. rewrite C38_exact, C38_python by assumption. reflexivity. Qed.

(** * Cases *)
Definition surv_rows : list srow := [(3, true); (1, false); (3, true); (2, true); (5, false); (0, true)]%Q.
Example C38_ex : times_ok surv_rows /\ (hazard surv_rows 3 == (1 # 6) + (1 # 4) + (2 # 3))%Q /\ (py_hazard surv_rows (5 # 2) == (1 # 6) + (1 # 4))%Q /\ (hazard surv_rows 0 == 1 # 6)%Q /\ (hazard [(2, true); (1, false)]%Q 1 == 1 # 3)%Q.
Proof. split; [repeat (apply Forall_cons; [cbn; lra|]); apply Forall_nil|]. repeat split; vm_compute; reflexivity. Qed.
(** Two events less than 1e-6 apart: the solver gives the first the value of the second. *)
Theorem C38_close_refuted : exists rows t, times_ok rows /\ In (t, true) rows /\ ~ (hazard rows t == baseline rows t)%Q.
Proof.
  exists [(1, true); ((20000001 # 20000000), true)]%Q, 1%Q. split; [repeat (apply Forall_cons; [cbn; lra|]); apply Forall_nil|]. split; [now left|]. vm_compute. discriminate.
Qed.

Print Assumptions C38_value.
Print Assumptions C38_exact.
Print Assumptions C38_python.
Print Assumptions C38_positive.
Print Assumptions C38_monotone.
Print Assumptions C38_agree.
Print Assumptions C38_close_refuted.
