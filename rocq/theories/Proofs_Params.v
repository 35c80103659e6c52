(** Lemmas about the parameter handler. *)
From Coq Require Import List String Ascii ZArith QArith Bool Lia Lqa.
From Verif Require Import Model_Params Spec_Params.
Import ListNotations.
Local Open Scope string_scope.

Section Map.
Context {A B : Type} (f : A -> B).
Definition shape (m : list (string * A)) : list (string * B) := map (fun p => (fst p, f (snd p))) m.

Lemma get_shape n m : m_get n (shape m) = option_map f (m_get n m).
Proof. induction m as [|[k a] m IH]; cbn; [reflexivity|]. destruct (k =? n); [reflexivity|exact IH]. Qed.
Lemma put_shape n a e m : m_get n m = Some e -> f a = f e -> shape (m_put n a m) = shape m.
Proof.
  intros G E. induction m as [|[k b] m IH]; cbn in *; [discriminate|].
  destruct (k =? n); cbn.
  - injection G as ->. rewrite E. reflexivity.
  - f_equal. exact (IH G).
Qed.
End Map.

Section Map1.
Context {A : Type}.
Implicit Type m : list (string * A).
Lemma put_forall (P : A -> Prop) n a m : Forall (fun p => P (snd p)) m -> P a -> Forall (fun p => P (snd p)) (m_put n a m).
Proof.
  intros F H. induction m as [|[k b] m IH]; cbn.
  - constructor; [exact H|constructor].
  - inversion F; subst. destruct (k =? n); constructor; auto.
Qed.
Lemma get_put_same n a m : m_get n (m_put n a m) = Some a.
Proof.
  induction m as [|[k b] m IH]; cbn; [rewrite String.eqb_refl; reflexivity|].
  destruct (k =? n) eqn:E; cbn; rewrite E; [reflexivity|exact IH].
Qed.
Lemma get_put_other n n' a m : n <> n' -> m_get n' (m_put n a m) = m_get n' m.
Proof.
  intros D. induction m as [|[k b] m IH]; cbn.
  - destruct (String.eqb_spec n n'); [contradiction|reflexivity].
  - destruct (String.eqb_spec k n) as [->|]; cbn.
    + destruct (String.eqb_spec n n'); [contradiction|reflexivity].
    + destruct (k =? n'); [reflexivity|exact IH].
Qed.
Lemma get_in n a m : m_get n m = Some a -> In (n, a) m.
Proof.
  induction m as [|[k b] m IH]; cbn; [discriminate|].
  destruct (String.eqb_spec k n) as [->|]; [intros [= ->]; now left|intros H; right; auto].
Qed.
Lemma get_not_in n m : ~ In n (map fst m) -> m_get n m = None.
Proof.
  induction m as [|[k b] m IH]; cbn; [reflexivity|].
  intros H. destruct (String.eqb_spec k n) as [->|]; [tauto|]. apply IH. tauto.
Qed.
Lemma nodup_get n a m : NoDup (map fst m) -> In (n, a) m -> m_get n m = Some a.
Proof.
  induction m as [|[k b] m IH]; cbn; [tauto|].
  intros D [E|E].
  - injection E as -> ->. rewrite String.eqb_refl. reflexivity.
  - apply NoDup_cons_iff in D. destruct D as [D1 D2]. destruct (String.eqb_spec k n) as [->|].
    + exfalso. apply D1. change n with (fst (n, a)). apply in_map. exact E.
    + auto.
Qed.
Lemma known_get n m : known n m = true <-> exists a, m_get n m = Some a.
Proof.
  unfold known. destruct (m_get n m) as [a|]; split; intros H; try discriminate; eauto.
  destruct H as [a H]. discriminate.
Qed.
Lemma known_none n m : known n m = false <-> m_get n m = None.
Proof. unfold known. destruct (m_get n m); split; intros; congruence. Qed.
End Map1.

Lemma mem_in n l : mem n l = true <-> In n l.
Proof.
  unfold mem. rewrite existsb_exists. split.
  - intros (x & H & E). apply String.eqb_eq in E. subst. exact H.
  - intros H. exists n. split; [exact H|apply String.eqb_refl].
Qed.

(** The shapes of the four maps. *)
Definition i_shape (e : ientry) := (ie_min e, ie_max e).
Definition f_shape (e : fentry) := (fe_min e, fe_max e).
Definition s_shape (e : sentry) := (se_allowed e, se_optional e).
Definition b_shape (e : bool) := tt.
Definition i_ok (e : ientry) : Prop := (ie_min e <= ie_cur e <= ie_max e)%Z.
Definition f_ok (e : fentry) : Prop := flt_gt (fe_min e) (fe_cur e) = false /\ flt_gt (fe_cur e) (fe_max e) = false.
Definition s_ok (e : sentry) : Prop := se_allowed e = [] \/ In (se_cur e) (se_allowed e) \/ (se_optional e = true /\ se_cur e = "").

Definition same_shape (h h' : handler) : Prop :=
  shape i_shape (h_int h') = shape i_shape (h_int h) /\ shape f_shape (h_flt h') = shape f_shape (h_flt h)
  /\ shape s_shape (h_str h') = shape s_shape (h_str h) /\ shape b_shape (h_bool h') = shape b_shape (h_bool h).
Definition all_ok (h : handler) : Prop :=
  Forall (fun p => i_ok (snd p)) (h_int h) /\ Forall (fun p => f_ok (snd p)) (h_flt h) /\ Forall (fun p => s_ok (snd p)) (h_str h).

Lemma same_shape_refl h : same_shape h h.
Proof. repeat split. Qed.
Lemma same_shape_trans h1 h2 h3 : same_shape h1 h2 -> same_shape h2 h3 -> same_shape h1 h3.
Proof. intros (A&B&C&D) (A'&B'&C'&D'). unfold same_shape. rewrite A', B', C', D'. auto. Qed.

Lemma set_str_keeps h n v h' : set_str h n v = Ok h' -> same_shape h h' /\ (all_ok h -> all_ok h').
Proof.
  unfold set_str. destruct (m_get n (h_str h)) as [e|] eqn:G; [|discriminate].
  destruct (check_str e v) eqn:K; [|discriminate]. intros [= <-]. split.
  - repeat split; cbn. apply (put_shape s_shape n _ e); [exact G|reflexivity].
  - intros (A&B&C). refine (conj A (conj B _)). cbn. apply (put_forall s_ok); [exact C|].
    unfold s_ok; cbn. unfold check_str in K. destruct (se_optional e) eqn:O; cbn in K.
    + destruct (String.eqb_spec v "") as [->|]; [auto|]. destruct (se_allowed e); [auto|]. right; left. apply mem_in. exact K.
    + destruct (se_allowed e); [auto|]. right; left. apply mem_in. exact K.
Qed.
Lemma set_int_keeps h n v h' : set_int h n v = Ok h' -> same_shape h h' /\ (all_ok h -> all_ok h').
Proof.
  unfold set_int. destruct (m_get n (h_int h)) as [e|] eqn:G; [|discriminate].
  destruct (check_int e v) eqn:K; [|discriminate]. intros [= <-]. split.
  - repeat split; cbn. apply (put_shape i_shape n _ e); [exact G|reflexivity].
  - intros (A&B&C). refine (conj _ (conj B C)). cbn. apply (put_forall i_ok); [exact A|].
    unfold i_ok; cbn. unfold check_int in K. apply negb_true_iff, orb_false_iff in K. destruct K as [K1 K2].
    apply Z.ltb_ge in K1, K2. lia.
Qed.
Lemma set_flt_keeps h n v h' : set_flt h n v = Ok h' -> same_shape h h' /\ (all_ok h -> all_ok h').
Proof.
  unfold set_flt. destruct (m_get n (h_flt h)) as [e|] eqn:G; [|discriminate].
  destruct (check_flt e v) eqn:K; [|discriminate]. intros [= <-]. split.
  - repeat split; cbn. apply (put_shape f_shape n _ e); [exact G|reflexivity].
  - intros (A&B&C). refine (conj A (conj _ C)). cbn. apply (put_forall f_ok); [exact B|].
    unfold f_ok; cbn. unfold check_flt in K. apply negb_true_iff, orb_false_iff in K. exact K.
Qed.
Lemma set_bool_keeps h n v h' : set_bool h n v = Ok h' -> same_shape h h' /\ (all_ok h -> all_ok h').
Proof.
  unfold set_bool. destruct (m_get n (h_bool h)) as [e|] eqn:G; [|discriminate].
  intros [= <-]. split.
  - repeat split; cbn. apply (put_shape b_shape n _ e); [exact G|reflexivity].
  - auto.
Qed.

Lemma bind_ok {A B} (o : out A) (f : A -> out B) b : bind o f = Ok b -> exists a, o = Ok a /\ f a = Ok b.
Proof. destruct o; cbn; intros; try discriminate. eauto. Qed.

Lemma parse_keeps R args : forall h h', parse_args R h args = Ok h' -> same_shape h h' /\ (all_ok h -> all_ok h').
Proof.
  assert (H : forall k args, (List.length args <= k)%nat -> forall h h', parse_args R h args = Ok h' -> same_shape h h' /\ (all_ok h -> all_ok h')).
  2:{ intros h h'. apply (H (List.length args)). lia. }
  induction k as [|k IH]; intros [|a rest] L h h'; try (cbn in L; lia).
  - cbn. intros [= <-]. split; [apply same_shape_refl|auto].
  - cbn. intros [= <-]. split; [apply same_shape_refl|auto].
  - cbn [parse_args]. destruct a as [|c n]; [discriminate|].
    destruct (ascii_dec c "-") as [->|NE].
    2:{ intros H. exfalso. destruct c as [[] [] [] [] [] [] [] []]; try discriminate H. apply NE. reflexivity. }
    destruct (known n (h_str h) || known n (h_int h) || known n (h_bool h) || known n (h_flt h)); [|discriminate].
    destruct rest as [|v rest]; [discriminate|]. cbn in L. intros H.
    apply bind_ok in H. destruct H as (h1 & H1 & H2).
    apply IH in H2; [|lia]. destruct H2 as [S2 O2].
    assert (K : same_shape h h1 /\ (all_ok h -> all_ok h1)).
    { destruct (known n (h_str h)); [exact (set_str_keeps _ _ _ _ H1)|].
      destruct (known n (h_int h)).
      { apply bind_ok in H1. destruct H1 as (z & _ & H1). exact (set_int_keeps _ _ _ _ H1). }
      destruct (known n (h_bool h)).
      { apply bind_ok in H1. destruct H1 as (z & _ & H1). exact (set_bool_keeps _ _ _ _ H1). }
      apply bind_ok in H1. destruct H1 as (z & _ & H1). exact (set_flt_keeps _ _ _ _ H1). }
    destruct K as [K1 K2]. split; [exact (same_shape_trans _ _ _ K1 S2)|auto].
Qed.

Lemma step_keeps R h c h' : pstep R h c = Ok h' -> same_shape h h' /\ (all_ok h -> all_ok h').
Proof.
  destruct c; cbn.
  - apply set_str_keeps. - apply set_int_keeps. - apply set_bool_keeps. - apply set_flt_keeps. - apply parse_keeps.
Qed.
Lemma run_keeps R cs : forall h h', prun R h cs = Ok h' -> same_shape h h' /\ (all_ok h -> all_ok h').
Proof.
  induction cs as [|c cs IH]; cbn; intros h h' H.
  - injection H as <-. split; [apply same_shape_refl|auto].
  - apply bind_ok in H. destruct H as (h1 & H1 & H2). apply step_keeps in H1. apply IH in H2.
    destruct H1, H2. split; [eapply same_shape_trans; eauto|auto].
Qed.

(** The declared handler. *)
Definition h_decl : handler := Eval vm_compute in match define_parameters with Ok h => h | _ => h_new end.
Lemma define_decl : define_parameters = Ok h_decl.
Proof. vm_compute. reflexivity. Qed.

Lemma decl_ok : all_ok h_decl.
Proof.
  unfold all_ok, h_decl; cbn. refine (conj _ (conj _ _)).
  - repeat (apply Forall_cons; [unfold i_ok; cbn; lia|]). apply Forall_nil.
  - repeat (apply Forall_cons; [split; vm_compute; reflexivity|]). apply Forall_nil.
  - repeat (apply Forall_cons; [unfold s_ok; cbn; tauto|]). apply Forall_nil.
Qed.

(** What a handler of the declared shape knows. *)
Definition decl_h (h : handler) : Prop := same_shape h_decl h /\ all_ok h.

Lemma forall_get {A} (P : A -> Prop) n a (m : list (string * A)) : Forall (fun p => P (snd p)) m -> m_get n m = Some a -> P a.
Proof. intros F G. apply get_in in G. rewrite Forall_forall in F. exact (F _ G). Qed.

Lemma shape_get {A B} (f : A -> B) n (m m0 : list (string * A)) b :
  shape f m = shape f m0 -> m_get n (shape f m0) = Some b -> exists a, m_get n m = Some a /\ f a = b.
Proof.
  intros E G. rewrite <- E, get_shape in G. destruct (m_get n m) as [a|]; [|discriminate]. cbn in G. injection G as G. eauto.
Qed.
Lemma shape_none {A B} (f : A -> B) n (m m0 : list (string * A)) :
  shape f m = shape f m0 -> m_get n (shape f m0) = None -> m_get n m = None.
Proof. intros E G. rewrite <- E, get_shape in G. destruct (m_get n m) as [a|]; [discriminate|reflexivity]. Qed.

Lemma range_of lo hi v : flt_gt (fz lo) v = false -> flt_gt v (fz hi) = false -> v = FNan \/ in_range lo hi v.
Proof.
  destruct v as [| | |q]; cbn; intros H1 H2; try discriminate; [now left|]. right. exists q. split; [reflexivity|].
  apply negb_false_iff, Qle_bool_iff in H1. apply negb_false_iff, Qle_bool_iff in H2. auto.
Qed.

Lemma decl_int h n lo hi : decl_h h -> In (n, (lo, hi)) int_ranges -> exists e, m_get n (h_int h) = Some e /\ ie_min e = lo /\ ie_max e = hi /\ i_ok e.
Proof.
  intros ((SI&_&_&_)&(O&_&_)) I.
  assert (G : m_get n (shape i_shape (h_int h_decl)) = Some (lo, hi)).
  { unfold int_ranges in I; cbn [In] in I. repeat (destruct I as [I|I]; [injection I as <- <- <-; vm_compute; reflexivity|]). destruct I. }
  destruct (shape_get _ _ _ _ _ SI G) as (e & Ge & Se). injection Se as S1 S2. exists e.
  refine (conj Ge (conj S1 (conj S2 _))). exact (forall_get i_ok n e _ O Ge).
Qed.
Lemma decl_flt h n lo hi : decl_h h -> In (n, (lo, hi)) flt_ranges -> exists e, m_get n (h_flt h) = Some e /\ fe_min e = fz lo /\ fe_max e = fz hi /\ f_ok e.
Proof.
  intros ((_&SF&_&_)&(_&O&_)) I.
  assert (G : m_get n (shape f_shape (h_flt h_decl)) = Some (fz lo, fz hi)).
  { assert (E : shape f_shape (h_flt h_decl) = shape (fun r => (fz (fst r), fz (snd r))) flt_ranges) by (vm_compute; reflexivity).
    rewrite E. rewrite get_shape, (nodup_get n (lo, hi)); [reflexivity| |exact I].
    change (map fst flt_ranges) with ["time"; "train-test-split"; "upper-bound"; "discrimination-limit"; "cost-complexity"; "lasso-penalty"; "ridge-penalty"].
    repeat constructor; cbn; intuition discriminate. }
  destruct (shape_get _ _ _ _ _ SF G) as (e & Ge & Se). injection Se as S1 S2. exists e.
  refine (conj Ge (conj S1 (conj S2 _))). exact (forall_get f_ok n e _ O Ge).
Qed.
Lemma decl_str h n vs opt : decl_h h -> In (n, (vs, opt)) str_values -> exists e, m_get n (h_str h) = Some e /\ se_allowed e = vs /\ se_optional e = opt /\ s_ok e.
Proof.
  intros ((_&_&SS&_)&(_&_&O)) I.
  assert (G : m_get n (shape s_shape (h_str h_decl)) = Some (vs, opt)).
  { unfold str_values in I; cbn [In] in I. repeat (destruct I as [I|I]; [injection I as <- <- <-; vm_compute; reflexivity|]). destruct I. }
  destruct (shape_get _ _ _ _ _ SS G) as (e & Ge & Se). injection Se as S1 S2. exists e.
  refine (conj Ge (conj S1 (conj S2 _))). exact (forall_get s_ok n e _ O Ge).
Qed.
Lemma decl_bool h n : decl_h h -> In n bool_names -> exists e, m_get n (h_bool h) = Some e.
Proof.
  intros ((_&_&_&SB)&_) I.
  assert (G : m_get n (shape b_shape (h_bool h_decl)) = Some tt).
  { unfold bool_names in I; cbn [In] in I. repeat (destruct I as [<-|I]; [vm_compute; reflexivity|]). destruct I. }
  destruct (shape_get _ _ _ _ _ SB G) as (e & Ge & _). eauto.
Qed.

Lemma unknown_none h n : decl_h h -> unknown_name n ->
  m_get n (h_int h) = None /\ m_get n (h_flt h) = None /\ m_get n (h_str h) = None /\ m_get n (h_bool h) = None.
Proof.
  intros ((SI&SF&SS&SB)&_) (U1&U2&U3&U4). repeat split.
  - apply (shape_none _ _ _ _ SI). apply get_not_in. intros I. apply U1. exact I.
  - apply (shape_none _ _ _ _ SF). apply get_not_in. intros I. apply U2. exact I.
  - apply (shape_none _ _ _ _ SS). apply get_not_in. intros I. apply U3. exact I.
  - apply (shape_none _ _ _ _ SB). apply get_not_in. intros I. apply U4. exact I.
Qed.

Lemma decl_run R cs h0 h : define_parameters = Ok h0 -> prun R h0 cs = Ok h -> decl_h h.
Proof.
  rewrite define_decl. intros [= <-] H. apply run_keeps in H. destruct H as [S O]. split; [exact S|]. apply O. exact decl_ok.
Qed.
Lemma decl_set h h' : decl_h h -> same_shape h h' /\ (all_ok h -> all_ok h') -> decl_h h'.
Proof. intros [A B] [C D]. split; [eapply same_shape_trans; eauto|auto]. Qed.

Lemma well_of h : decl_h h -> well_set h.
Proof.
  intros D. unfold well_set, get_int, get_flt, get_str, get_bool. refine (conj _ (conj _ (conj _ _))).
  - intros n lo hi I. destruct (decl_int h n lo hi D I) as (e & G & <- & <- & O). rewrite G. eauto.
  - intros n lo hi I. destruct (decl_flt h n lo hi D I) as (e & G & E1 & E2 & O). rewrite G. eexists. split; [reflexivity|].
    destruct O as [O1 O2]. rewrite E1 in O1. rewrite E2 in O2. apply range_of; assumption.
  - intros n vs opt I. destruct (decl_str h n vs opt D I) as (e & G & E1 & E2 & O). rewrite G. eexists. split; [reflexivity|].
    unfold s_ok in O. rewrite E1, E2 in O. exact O.
  - intros n I. destruct (decl_bool h n D I) as (e & G). rewrite G. eauto.
Qed.
