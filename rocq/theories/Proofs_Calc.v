(** Lemmas about the frequency counts and costs of the depth-two solver. *)
From Coq Require Import List Arith Bool Lia ZArith Sorted.
From Verif Require Import Model_FeatureVector Model_Data Model_Node Model_Terminal Spec_Tree
  Proofs_View Proofs_Diff Proofs_Feature.
Import ListNotations.
Local Open Scope nat_scope.

(** A feature vector as the solver prepares it: [nf] features, present list and pair indices
    up to date. *)
Definition wf_inst (nf : nat) (x : inst) : Prop :=
  fv_num (ifv x) = nf /\ fv_ok (ifv x) /\ fv_pairs (ifv x) = pairs_of nf (fv_present (ifv x)).
Definition wf_view (nf : nat) (v : view) : Prop := forall x, In x (concat v) -> wf_inst nf x.

Lemma wf_filter nf v p : wf_view nf v -> wf_view nf (map (filter p) v).
Proof. intros H x Hx. rewrite concat_map_filter in Hx. apply filter_In in Hx. apply H. tauto. Qed.
Lemma wf_left nf v f : wf_view nf v -> wf_view nf (split_left f v).
Proof. apply wf_filter. Qed.
Lemma wf_right nf v f : wf_view nf v -> wf_view nf (split_right f v).
Proof. apply wf_filter. Qed.
Lemma wf_restrict nf v b : wf_view nf v -> wf_view nf (restrict b v).
Proof. apply wf_filter. Qed.

(** ** Adding at a list of cells *)
Fixpoint occ (l : list nat) (j : nat) : Z :=
  match l with [] => 0%Z | i :: r => ((if (j =? i)%nat then 1 else 0) + occ r j)%Z end.

Lemma add_all_occ z idxs m j : add_all z idxs m j = (m j + z * occ idxs j)%Z.
Proof.
  unfold add_all. revert m; induction idxs as [|i l IH]; intro m; cbn [fold_left occ]; [lia|].
  rewrite IH. unfold add_at. destruct (j =? i); lia.
Qed.

Lemma occ_not_in l j : ~ In j l -> occ l j = 0%Z.
Proof.
  induction l as [|i l IH]; intro H; cbn [occ]; [reflexivity|].
  destruct (j =? i) eqn:E; [apply Nat.eqb_eq in E; subst; exfalso; apply H; left; reflexivity|].
  rewrite IH by (intro; apply H; right; assumption). reflexivity.
Qed.

Lemma occ_NoDup l j : NoDup l -> In j l -> occ l j = 1%Z.
Proof.
  induction 1 as [|i l Hni Hnd IH]; intro H; [contradiction|]. cbn [occ].
  destruct (j =? i) eqn:E.
  - apply Nat.eqb_eq in E. subst. rewrite occ_not_in by exact Hni. reflexivity.
  - destruct H as [->|H]; [rewrite Nat.eqb_refl in E; discriminate|]. rewrite IH by exact H. reflexivity.
Qed.

Definition b2z (b : bool) : Z := if b then 1%Z else 0%Z.

Lemma sorted_lt_NoDup l : StronglySorted lt l -> NoDup l.
Proof.
  induction 1 as [|y p Hs IH Hall]; constructor; [|exact IH].
  intro Hc. rewrite Forall_forall in Hall. specialize (Hall y Hc). lia.
Qed.

Lemma occ_pairs nf x f g :
  wf_inst nf x -> f <= g -> g < nf -> occ (fv_pairs (ifv x)) (pair_index nf f g) = b2z (has f x && has g x).
Proof.
  intros (Hn & (Hs & Hin) & ->) Hle Hlt.
  assert (Hb : forall h, In h (fv_present (ifv x)) -> h < nf) by (intros h Hh; apply Hin in Hh; lia).
  unfold has. destruct (fv_has (ifv x) f && fv_has (ifv x) g) eqn:E; cbn [b2z].
  - apply andb_true_iff in E. destruct E as [E1 E2]. apply occ_NoDup.
    + apply pairs_of_NoDup; assumption.
    + apply in_pairs_of; [assumption..|]. exists f, g.
      repeat split; try assumption; apply Hin; split; try assumption; lia.
  - apply occ_not_in. rewrite in_pairs_of by assumption. intros (f' & g' & Hf & Hg & Hle' & He).
    apply pair_index_inj in He; [|assumption|assumption|assumption|apply Hb; exact Hg].
    destruct He as [-> ->]. apply Hin in Hf, Hg. destruct Hf as [_ Hf], Hg as [_ Hg]. rewrite Hf, Hg in E. discriminate.
Qed.

Lemma occ_diag nf x f :
  wf_inst nf x -> f < nf -> occ (map (fun f => pair_index nf f f) (fv_present (ifv x))) (pair_index nf f f) = b2z (has f x).
Proof.
  intros (Hn & (Hs & Hin) & _) Hlt.
  assert (Hb : forall h, In h (fv_present (ifv x)) -> h < nf) by (intros h Hh; apply Hin in Hh; lia).
  unfold has. destruct (fv_has (ifv x) f) eqn:E; cbn [b2z].
  - assert (Hf : In f (fv_present (ifv x))) by (apply Hin; split; [lia|exact E]).
    apply occ_NoDup; [|apply in_map_iff; exists f; auto].
    apply sorted_lt_NoDup in Hs. clear -Hs Hb. induction Hs as [|y p Hni Hnd IH]; cbn [map]; constructor.
    + intro Hc. apply in_map_iff in Hc. destruct Hc as (z & He & Hz).
      apply pair_index_inj in He; [destruct He; subst; contradiction|lia|apply Hb; right; exact Hz|lia|apply Hb; left; reflexivity].
    + apply IH. intros; apply Hb; right; assumption.
  - apply occ_not_in. intro Hc. apply in_map_iff in Hc. destruct Hc as (z & He & Hz).
    apply pair_index_inj in He; [|lia|apply Hb; exact Hz|lia|exact Hlt]. destruct He as [-> _].
    apply Hin in Hz. destruct Hz. congruence.
Qed.

(** What an instance adds to a cell. *)
Lemma occ_touched_diag nf one x f :
  wf_inst nf x -> f < nf -> occ (touched nf one x) (ixd nf f) = b2z (has f x).
Proof.
  intros Hw Hf. unfold touched, ixd. destruct one; [apply occ_diag; assumption|].
  rewrite occ_pairs by (try assumption; lia). destruct (has f x); reflexivity.
Qed.

Lemma occ_touched_pair nf x f g :
  wf_inst nf x -> f < nf -> g < nf -> occ (touched nf false x) (ix11 nf f g) = b2z (has f x && has g x).
Proof.
  intros Hw Hf Hg. unfold touched, ix11. destruct (g <? f) eqn:E.
  - apply Nat.ltb_lt in E. rewrite occ_pairs by (try assumption; lia). rewrite andb_comm. reflexivity.
  - apply Nat.ltb_ge in E. apply occ_pairs; assumption.
Qed.

Section WithTask.
  Context (T : task) (nf : nat).
  Hypothesis Htrue : tk_zero_true T = true -> forall x k, tk_inst T x k k = 0%Z.
  Notation cost := (tree_cost (tk_inst T)).

  (** ** One instance *)
  Lemma upd_label_spec one x org first mult k l :
    let k' := upd_label T nf one x org first mult k l in
    let c := (mult * tk_inst T x org l)%Z in
    (forall j, k_cnt k' j = (k_cnt k j + (if (first <? l)%nat then 0 else mult * occ (touched nf one x) j))%Z)
    /\ k_tot k' = k_tot k
    /\ (forall l' j, k_cost k' l' j = (k_cost k l' j + (if (l' =? l)%nat then c * occ (touched nf one x) j else 0))%Z)
    /\ (forall l', k_ctot k' l' = (k_ctot k l' + (if (l' =? l)%nat then c else 0))%Z).
  Proof.
    cbn zeta. unfold upd_label. set (c := (mult * tk_inst T x org l)%Z).
    destruct (c =? 0)%Z eqn:Ec.
    - apply Z.eqb_eq in Ec. rewrite Ec. destruct (first <? l); cbn [upd_count k_cnt k_tot k_cost k_ctot].
      + repeat split; intros; try destruct (l' =? l); lia.
      + repeat split; intros; try destruct (l' =? l); try (rewrite add_all_occ); lia.
    - destruct (first <? l); cbn [upd_count upd_cost k_cnt k_tot k_cost k_ctot].
      + repeat split; intros; try destruct (l' =? l); try (rewrite add_all_occ); lia.
      + repeat split; intros; try destruct (l' =? l); try (rewrite add_all_occ); lia.
  Qed.

  Definition lcount (ls : list nat) (l : nat) : Z := if in_dec Nat.eq_dec l ls then 1%Z else 0%Z.

  Lemma upd_labels_spec one x org first mult ls k :
    NoDup ls -> (forall l, In l ls -> first < l) ->
    let k' := fold_left (upd_label T nf one x org first mult) ls k in
    (forall j, k_cnt k' j = k_cnt k j)
    /\ k_tot k' = k_tot k
    /\ (forall l' j, k_cost k' l' j = (k_cost k l' j + lcount ls l' * (mult * tk_inst T x org l' * occ (touched nf one x) j))%Z)
    /\ (forall l', k_ctot k' l' = (k_ctot k l' + lcount ls l' * (mult * tk_inst T x org l'))%Z).
  Proof.
    cbn zeta. intros Hnd. revert k. induction Hnd as [|l ls Hni Hnd IH]; intros k Hf.
    - cbn [fold_left]. unfold lcount. repeat split; intros; destruct (in_dec Nat.eq_dec l' []) as [[]|]; lia.
    - cbn [fold_left]. destruct (upd_label_spec one x org first mult k l) as (H1 & H2 & H3 & H4).
      destruct (IH (upd_label T nf one x org first mult k l)) as (G1 & G2 & G3 & G4); [intros; apply Hf; right; assumption|].
      assert (Hlt : first <? l = true) by (apply Nat.ltb_lt, Hf; left; reflexivity). rewrite Hlt in H1.
      assert (Hlc : forall l', lcount (l :: ls) l' = (lcount ls l' + (if (l' =? l)%nat then 1 else 0))%Z).
      { intro l'. unfold lcount. destruct (l' =? l) eqn:E.
        - apply Nat.eqb_eq in E. subst l'. destruct (in_dec Nat.eq_dec l (l :: ls)) as [|Hi]; [|exfalso; apply Hi; left; reflexivity].
          destruct (in_dec Nat.eq_dec l ls); [contradiction|reflexivity].
        - apply Nat.eqb_neq in E. destruct (in_dec Nat.eq_dec l' (l :: ls)) as [[Hi|Hi]|Hi]; [congruence| |];
            destruct (in_dec Nat.eq_dec l' ls); try reflexivity; try contradiction. exfalso; apply Hi; right; assumption. }
      repeat split; intros.
      + rewrite G1, H1. lia.
      + rewrite G2. exact H2.
      + rewrite G3, H3, Hlc. destruct (l' =? l) eqn:E; [apply Nat.eqb_eq in E; subst|]; lia.
      + rewrite G4, H4, Hlc. destruct (l' =? l) eqn:E; [apply Nat.eqb_eq in E; subst|]; lia.
  Qed.

  Lemma cost_labels_spec nl org :
    org < nl ->
    exists first rest, cost_labels T nl org = first :: rest
      /\ NoDup (first :: rest) /\ (forall l, In l rest -> first < l)
      /\ (forall l, l < nl -> ~ In l (first :: rest) -> l = org /\ tk_zero_true T = true)
      /\ (forall l, In l (first :: rest) -> l < nl).
  Proof.
    intro Ho. unfold cost_labels. destruct (1 <? nl) eqn:E.
    - apply Nat.ltb_lt in E.
      set (p := fun l => negb (tk_zero_true T) || negb (l =? org)).
      assert (Hs : StronglySorted lt (filter p (seq 0 nl))) by (apply sorted_filter, seq_sorted).
      assert (Hin : forall l, In l (filter p (seq 0 nl)) <-> l < nl /\ p l = true).
      { intro l. rewrite filter_In, in_seq. intuition lia. }
      destruct (filter p (seq 0 nl)) as [|first rest] eqn:Ef.
      + exfalso. destruct org as [|o].
        * apply (Hin 1). split; [exact E|]. unfold p. cbn. apply orb_true_r.
        * apply (Hin 0). split; [lia|]. unfold p. cbn. apply orb_true_r.
      + exists first, rest. split; [reflexivity|]. split; [apply sorted_lt_NoDup; exact Hs|].
        split; [|split].
        * intros l Hl. inversion Hs as [|? ? _ Hall]; subst. rewrite Forall_forall in Hall. apply Hall. exact Hl.
        * intros l Hl Hn. rewrite Hin in Hn. destruct (p l) eqn:Ep; [exfalso; apply Hn; auto|].
          unfold p in Ep. apply orb_false_iff in Ep. destruct Ep as [E1 E2].
          apply negb_false_iff in E1, E2. apply Nat.eqb_eq in E2. auto.
        * intros l Hl. apply Hin in Hl. tauto.
    - apply Nat.ltb_ge in E. exists 0, []. split; [reflexivity|]. split; [repeat constructor; intros []|].
      split; [intros l []|]. split.
      + intros l Hl Hn. exfalso. apply Hn. left. lia.
      + intros l [<-|[]]. lia.
  Qed.

  Lemma upd_inst_spec one nl org mult k x :
    org < nl ->
    let k' := upd_inst T nf one nl org mult k x in
    (forall j, k_cnt k' j = (k_cnt k j + mult * occ (touched nf one x) j)%Z)
    /\ k_tot k' = k_tot k
    /\ (forall l j, l < nl -> k_cost k' l j = (k_cost k l j + mult * (tk_inst T x org l * occ (touched nf one x) j))%Z)
    /\ (forall l, l < nl -> k_ctot k' l = (k_ctot k l + mult * tk_inst T x org l)%Z).
  Proof.
    intro Ho. cbn zeta. unfold upd_inst.
    destruct (cost_labels_spec nl org Ho) as (first & rest & -> & Hnd & Hlt & Hmiss & _).
    cbn [hd fold_left].
    destruct (upd_label_spec one x org first mult k first) as (H1 & H2 & H3 & H4).
    inversion Hnd as [|? ? Hni Hnd']; subst.
    destruct (upd_labels_spec one x org first mult rest (upd_label T nf one x org first mult k first) Hnd' Hlt) as (G1 & G2 & G3 & G4).
    rewrite Nat.ltb_irrefl in H1.
    assert (Hz : forall l, l < nl -> (if (l =? first)%nat then 0 else (1 - lcount rest l) * tk_inst T x org l)%Z = 0%Z).
    { intros l Hl. destruct (l =? first) eqn:E; [reflexivity|]. apply Nat.eqb_neq in E. unfold lcount.
      destruct (in_dec Nat.eq_dec l rest) as [Hi|Hi]; [lia|].
      destruct (Hmiss l Hl) as [-> Hzt]; [intros [?|?]; [congruence|contradiction]|]. rewrite (Htrue Hzt). lia. }
    assert (Hf : lcount rest first = 0%Z) by (unfold lcount; destruct (in_dec Nat.eq_dec first rest); [contradiction|reflexivity]).
    repeat split.
    - intro j. rewrite G1. apply H1.
    - rewrite G2. exact H2.
    - intros l j Hl. rewrite G3, H3. specialize (Hz l Hl). destruct (l =? first) eqn:E.
      + apply Nat.eqb_eq in E. subst l. rewrite Hf. lia.
      + assert (He : tk_inst T x org l = (lcount rest l * tk_inst T x org l)%Z) by lia.
        rewrite He at 2. ring.
    - intros l Hl. rewrite G4, H4. specialize (Hz l Hl). destruct (l =? first) eqn:E.
      + apply Nat.eqb_eq in E. subst l. rewrite Hf. lia.
      + assert (He : tk_inst T x org l = (lcount rest l * tk_inst T x org l)%Z) by lia.
        rewrite He at 2. ring.
  Qed.

  Lemma upd_insts_spec one nl org mult xs : org < nl -> forall k,
    let k' := fold_left (upd_inst T nf one nl org mult) xs k in
    (forall j, k_cnt k' j = (k_cnt k j + mult * zsum (map (fun x => occ (touched nf one x) j) xs))%Z)
    /\ k_tot k' = k_tot k
    /\ (forall l j, l < nl -> k_cost k' l j = (k_cost k l j + mult * zsum (map (fun x => tk_inst T x org l * occ (touched nf one x) j) xs))%Z)
    /\ (forall l, l < nl -> k_ctot k' l = (k_ctot k l + mult * zsum (map (fun x => tk_inst T x org l) xs))%Z).
  Proof.
    intro Ho. cbn zeta. induction xs as [|x xs IH]; intro k; cbn [fold_left map zsum].
    - repeat split; intros; lia.
    - destruct (upd_inst_spec one nl org mult k x Ho) as (H1 & H2 & H3 & H4).
      destruct (IH (upd_inst T nf one nl org mult k x)) as (G1 & G2 & G3 & G4).
      repeat split; intros.
      + rewrite G1, H1. ring.
      + congruence.
      + rewrite G3, H3 by assumption. ring.
      + rewrite G4, H4 by assumption. ring.
  Qed.

  Lemma upd_view_spec one nl mult v : forall org k, org + length v <= nl ->
    let k' := upd_view_from T nf one nl org mult v k in
    (forall j, k_cnt k' j = (k_cnt k j + mult * vsum_from (fun _ x => occ (touched nf one x) j) org v)%Z)
    /\ k_tot k' = k_tot k
    /\ (forall l j, l < nl -> k_cost k' l j = (k_cost k l j + mult * vsum_from (fun o x => tk_inst T x o l * occ (touched nf one x) j) org v)%Z)
    /\ (forall l, l < nl -> k_ctot k' l = (k_ctot k l + mult * vsum_from (fun o x => tk_inst T x o l) org v)%Z).
  Proof.
    cbn zeta. induction v as [|xs v IH]; intros org k Hn; cbn [upd_view_from vsum_from length] in *.
    - repeat split; intros; lia.
    - destruct (upd_insts_spec one nl org mult xs ltac:(lia) k) as (H1 & H2 & H3 & H4).
      destruct (IH (S org) (fold_left (upd_inst T nf one nl org mult) xs k) ltac:(lia)) as (G1 & G2 & G3 & G4).
      repeat split; intros.
      + rewrite G1, H1. ring.
      + congruence.
      + rewrite G3, H3 by assumption. ring.
      + rewrite G4, H4 by assumption. ring.
  Qed.

  (** UpdateCosts adds [mult] times the contribution of the view to every cell. *)
  Lemma update_costs_spec one v mult k :
    let k' := update_costs T nf one v mult k in
    (forall j, k_cnt k' j = (k_cnt k j + mult * vsum (fun _ x => occ (touched nf one x) j) v)%Z)
    /\ k_tot k' = (k_tot k + mult * Z.of_nat (vsize v))%Z
    /\ (forall l j, l < num_labels v -> k_cost k' l j = (k_cost k l j + mult * vsum (fun o x => tk_inst T x o l * occ (touched nf one x) j) v)%Z)
    /\ (forall l, l < num_labels v -> k_ctot k' l = (k_ctot k l + mult * vsum (fun o x => tk_inst T x o l) v)%Z).
  Proof.
    cbn zeta. destruct (upd_view_spec one (num_labels v) mult v 0 k (le_n _)) as (H1 & H2 & H3 & H4).
    unfold update_costs. cbn [k_cnt k_tot k_cost k_ctot]. repeat split.
    - exact H1.
    - rewrite H2. ring.
    - exact H3.
    - exact H4.
  Qed.

  (** ** Exactness of a table *)
  (** The cells of a table hold the sums over the view. *)
  Definition cells (one : bool) (v : view) (k : calc) : Prop :=
    (forall j, k_cnt k j = vsum (fun _ x => occ (touched nf one x) j) v)
    /\ k_tot k = Z.of_nat (vsize v)
    /\ (forall l j, l < num_labels v -> k_cost k l j = vsum (fun o x => tk_inst T x o l * occ (touched nf one x) j)%Z v)
    /\ (forall l, l < num_labels v -> k_ctot k l = vsum (fun o x => tk_inst T x o l) v).

  Lemma calc_of_cells one v : cells one v (calc_of T nf one v).
  Proof.
    destruct (update_costs_spec one v 1 calc_zero) as (H1 & H2 & H3 & H4). fold (calc_of T nf one v) in *.
    cbn [k_cnt k_tot k_cost k_ctot calc_zero] in *. repeat split; intros.
    - rewrite H1. lia. - rewrite H2. lia. - rewrite H3 by assumption. lia. - rewrite H4 by assumption. lia.
  Qed.

  (** Sums over the instances that have a feature. *)
  Lemma zsum_filter_ind {A} (p : A -> bool) (g : A -> Z) xs :
    zsum (map (fun x => g x * b2z (p x))%Z xs) = zsum (map g (filter p xs)).
  Proof. induction xs as [|x xs IH]; cbn [map zsum filter]; [reflexivity|]. destruct (p x); cbn [b2z map zsum]; lia. Qed.

  Lemma vsum_from_ind (p : inst -> bool) (g : nat -> inst -> Z) v : forall k,
    vsum_from (fun o x => g o x * b2z (p x))%Z k v = vsum_from g k (map (filter p) v).
  Proof. induction v as [|xs v IH]; intro k; cbn [vsum_from map]; [reflexivity|]. rewrite IH, zsum_filter_ind. reflexivity. Qed.

  Lemma vsum_ind p g v : vsum (fun o x => g o x * b2z (p x))%Z v = vsum g (map (filter p) v).
  Proof. apply vsum_from_ind. Qed.

  Lemma vsum_one v : vsum (fun _ _ => 1%Z) v = Z.of_nat (vsize v).
  Proof. apply vsum_from_one. Qed.

  Lemma cost_leaf v l : cost v (Leaf l) = vsum (fun o x => tk_inst T x o l) v.
  Proof. rewrite tree_cost_vsum. reflexivity. Qed.

  Lemma split_right_right f g v : split_right g (split_right f v) = map (filter (fun x => has f x && has g x)) v.
  Proof. unfold split_right. rewrite map_map. apply map_ext. intro xs. apply filter_filter. Qed.

  (** What the solver reads from a table, in terms of splits of the data. *)
  Record exact (one : bool) (v : view) (k : calc) : Prop := Exact {
    ex_tot : k_tot k = Z.of_nat (vsize v);
    ex_ctot : forall l, l < num_labels v -> k_ctot k l = cost v (Leaf l);
    ex_cnt : forall f, f < nf -> k_cnt k (ixd nf f) = Z.of_nat (vsize (split_right f v));
    ex_cost : forall l f, l < num_labels v -> f < nf -> k_cost k l (ixd nf f) = cost (split_right f v) (Leaf l);
    ex_cnt2 : one = false -> forall f g, f < nf -> g < nf ->
      k_cnt k (ix11 nf f g) = Z.of_nat (vsize (split_right g (split_right f v)));
    ex_cost2 : one = false -> forall l f g, l < num_labels v -> f < nf -> g < nf ->
      k_cost k l (ix11 nf f g) = cost (split_right g (split_right f v)) (Leaf l) }.

  Lemma vsum_in_ext c1 c2 v : (forall j x, In x (concat v) -> c1 j x = c2 j x) -> vsum c1 v = vsum c2 v.
  Proof. apply vsum_ext. Qed.

  Lemma cells_exact one v k : wf_view nf v -> cells one v k -> exact one v k.
  Proof.
    intros Hw (H1 & H2 & H3 & H4). constructor.
    - exact H2.
    - intros l Hl. rewrite H4 by exact Hl. symmetry. apply cost_leaf.
    - intros f Hf. rewrite H1, <- vsum_one. unfold split_right. rewrite <- vsum_ind.
      apply vsum_ext. intros j x Hx. rewrite occ_touched_diag by (try apply Hw; assumption). lia.
    - intros l f Hl Hf. rewrite H3 by exact Hl. rewrite cost_leaf. unfold split_right. rewrite <- vsum_ind.
      apply vsum_ext. intros j x Hx. rewrite occ_touched_diag by (try apply Hw; assumption). reflexivity.
    - intros -> f g Hf Hg. rewrite H1, <- vsum_one, split_right_right, <- vsum_ind.
      apply vsum_ext. intros j x Hx. rewrite occ_touched_pair by (try apply Hw; assumption). lia.
    - intros -> l f g Hl Hf Hg. rewrite H3 by exact Hl. rewrite cost_leaf, split_right_right, <- vsum_ind.
      apply vsum_ext. intros j x Hx. rewrite occ_touched_pair by (try apply Hw; assumption). reflexivity.
  Qed.

  Lemma calc_of_exact one v : wf_view nf v -> exact one v (calc_of T nf one v).
  Proof. intro H. apply cells_exact; [exact H|apply calc_of_cells]. Qed.

  (** ** The derived counts and costs *)
  Lemma split_comm_ll f g v : split_left g (split_left f v) = split_left f (split_left g v).
  Proof. unfold split_left. rewrite !map_map. apply map_ext. intro xs. rewrite !filter_filter. apply filter_ext. intro x. apply andb_comm. Qed.
  Lemma split_comm_rr f g v : split_right g (split_right f v) = split_right f (split_right g v).
  Proof. unfold split_right. rewrite !map_map. apply map_ext. intro xs. rewrite !filter_filter. apply filter_ext. intro x. apply andb_comm. Qed.
  Lemma split_comm_lr f g v : split_left g (split_right f v) = split_right f (split_left g v).
  Proof. unfold split_left, split_right. rewrite !map_map. apply map_ext. intro xs. rewrite !filter_filter. apply filter_ext. intro x. apply andb_comm. Qed.

  Lemma cost_leaf_split v f l : cost v (Leaf l) = (cost (split_left f v) (Leaf l) + cost (split_right f v) (Leaf l))%Z.
  Proof. rewrite !cost_leaf. apply vsum_split. Qed.

  Section Reads.
    Context (one : bool) (v : view) (k : calc) (E : exact one v k).
    Lemma rd_count1 f : f < nf -> count1 nf k f = Z.of_nat (vsize (split_right f v)).
    Proof. intro Hf. unfold count1. apply (ex_cnt _ _ _ E). exact Hf. Qed.
    Lemma rd_count0 f : f < nf -> count0 nf k f = Z.of_nat (vsize (split_left f v)).
    Proof.
      intro Hf. unfold count0. rewrite (ex_cnt _ _ _ E) by exact Hf. rewrite (ex_tot _ _ _ E).
      rewrite (vsize_split f v). lia.
    Qed.
    Lemma rd_sol1 l f : l < num_labels v -> f < nf -> sol1 nf k l f = cost (split_right f v) (Leaf l).
    Proof. intros Hl Hf. unfold sol1. apply (ex_cost _ _ _ E); assumption. Qed.
    Lemma rd_sol0 l f : l < num_labels v -> f < nf -> sol0 nf k l f = cost (split_left f v) (Leaf l).
    Proof.
      intros Hl Hf. unfold sol0. rewrite (ex_cost _ _ _ E), (ex_ctot _ _ _ E) by assumption.
      rewrite (cost_leaf_split v f l). lia.
    Qed.
  End Reads.

  Section Reads2.
    Context (v : view) (k : calc) (E : exact false v k).
    Lemma rd_count11 f g : f < nf -> g < nf -> count11 nf k f g = Z.of_nat (vsize (split_right g (split_right f v))).
    Proof. intros Hf Hg. unfold count11. apply (ex_cnt2 _ _ _ E); auto. Qed.
    Lemma rd_count10 f g : f < nf -> g < nf -> count10 nf k f g = Z.of_nat (vsize (split_left g (split_right f v))).
    Proof.
      intros Hf Hg. unfold count10. rewrite (ex_cnt _ _ _ E), (ex_cnt2 _ _ _ E) by auto.
      rewrite (vsize_split g (split_right f v)). lia.
    Qed.
    Lemma rd_count01 f g : f < nf -> g < nf -> count01 nf k f g = Z.of_nat (vsize (split_right g (split_left f v))).
    Proof.
      intros Hf Hg. unfold count01. rewrite (ex_cnt _ _ _ E), (ex_cnt2 _ _ _ E) by auto.
      rewrite <- split_comm_lr, (split_comm_rr f g v), (vsize_split f (split_right g v)). lia.
    Qed.
    Lemma rd_count00 f g : f < nf -> g < nf -> count00 nf k f g = Z.of_nat (vsize (split_left g (split_left f v))).
    Proof.
      intros Hf Hg. unfold count00. rewrite !(ex_cnt _ _ _ E), (ex_cnt2 _ _ _ E), (ex_tot _ _ _ E) by auto.
      rewrite (vsize_split f v), (vsize_split g (split_left f v)), (vsize_split f (split_right g v)).
      rewrite <- !split_comm_lr, (split_comm_rr f g v). lia.
    Qed.
    Lemma rd_sol11 l f g : l < num_labels v -> f < nf -> g < nf -> sol11 nf k l f g = cost (split_right g (split_right f v)) (Leaf l).
    Proof. intros. unfold sol11. apply (ex_cost2 _ _ _ E); auto. Qed.
    Lemma rd_sol10 l f g : l < num_labels v -> f < nf -> g < nf -> sol10 nf k l f g = cost (split_left g (split_right f v)) (Leaf l).
    Proof.
      intros. unfold sol10. rewrite (ex_cost _ _ _ E), (ex_cost2 _ _ _ E) by auto.
      rewrite (cost_leaf_split (split_right f v) g). lia.
    Qed.
    Lemma rd_sol01 l f g : l < num_labels v -> f < nf -> g < nf -> sol01 nf k l f g = cost (split_right g (split_left f v)) (Leaf l).
    Proof.
      intros. unfold sol01. rewrite (ex_cost _ _ _ E), (ex_cost2 _ _ _ E) by auto.
      rewrite <- split_comm_lr, (split_comm_rr f g v), (cost_leaf_split (split_right g v) f). lia.
    Qed.
    Lemma rd_sol00 l f g : l < num_labels v -> f < nf -> g < nf -> sol00 nf k l f g = cost (split_left g (split_left f v)) (Leaf l).
    Proof.
      intros. unfold sol00. rewrite !(ex_cost _ _ _ E), (ex_cost2 _ _ _ E), (ex_ctot _ _ _ E) by auto.
      rewrite (cost_leaf_split v f), (cost_leaf_split (split_left f v) g), (cost_leaf_split (split_right g v) f).
      rewrite <- !split_comm_lr, (split_comm_rr f g v). lia.
    Qed.
  End Reads2.
End WithTask.
