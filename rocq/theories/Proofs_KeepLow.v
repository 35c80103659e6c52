(** Properties of the state that the elementary operations of the searches of depth at most
    two keep: as in Proofs_Keep, but solutions are only stored with a depth up to two. *)
From Coq Require Import List Arith Bool Lia ZArith.
From Verif Require Import Model_FeatureVector Model_Data Model_Node Model_Cache Model_Terminal Model_Solver.
Import ListNotations.
Local Open Scope nat_scope.

Section KeepLow.
  Context (T : task) (G : cfg) (Ps : st -> Prop).
  Hypothesis Hsparse : tk_sparse T = false.
  Hypothesis Htime : forall s, Ps s -> Ps (snd (in_time G s)).
  Hypothesis Har : forall s a, Ps s -> Ps (set_ar s a).
  Hypothesis Herr : forall s, Ps s -> Ps (set_err s).
  Hypothesis Hstore : forall s c v b sol d n, d <= 2 -> is_empty sol = false -> Ps (set_c s c) -> Ps (set_c s (c_store c v b sol d n)).
  Hypothesis Hupd : forall s c v b lb d n, Ps (set_c s c) -> Ps (set_c s (c_upd_lb T c v b lb d n)).
  Hypothesis Htransfer : forall s c b1 b2, Ps (set_c s c) -> Ps (set_c s (c_transfer T c b1 b2)).

  Lemma low_set_c_same s : set_c s (s_c s) = s.
  Proof. destruct s. reflexivity. Qed.
  Definition low_time := Htime.
  Lemma low_archive s v b d : Ps s -> Ps (update_archive G s v b d).
  Proof. unfold update_archive. case (c_sim G); auto. Qed.
  Lemma low_sim_loop s ar v b d n : forall c lb, Ps (set_c s c) -> Ps (set_c s (snd (sim_loop T ar v b d n c lb))).
  Proof.
    induction ar as [|[ev eb] ar IH]; intros c lb Hc; cbn [sim_loop]; [exact Hc|].
    destruct (_ <? _); [apply IH; exact Hc|]. destruct (sim_skip _ _ _); [apply IH; exact Hc|].
    destruct (_ =? _); [|apply IH; exact Hc]. destruct (c_is_optimal _ _ _ _ _); [apply Htransfer; exact Hc|].
    apply IH. apply Htransfer. exact Hc.
  Qed.
  Lemma low_sim s v b d n : Ps s -> Ps (snd (update_sim T G s v b d n)).
  Proof.
    intro H. unfold update_sim. destruct (c_sim G); [|exact H].
    rewrite <- (low_set_c_same s) in H.
    pose proof (low_sim_loop s (s_ar s d) v b d n (s_c s) init_lb H) as H'. destruct (sim_loop _ _ _ _ _ _ _ _) as [[lb opt] c]. cbn [snd] in H'.
    destruct (is_empty lb); [exact H'|]. destruct opt; [exact H'|]. destruct (tk_eq T _ _); [exact H'|]. cbn [snd]. apply (Hupd (set_c s c)). exact H'.
  Qed.
  Lemma low_terminal v b ub d n s : Ps s -> Ps (snd (solve_terminal T G v b ub d n s)).
  Proof.
    intro H. rewrite <- (low_set_c_same s) in H. unfold solve_terminal. cbn [snd]. apply low_archive.
    assert (E : forall c x d' n', d' <= 2 -> Ps (set_c s c) -> Ps (set_c s (store_term T c v b ub x d' n'))).
    { intros c x d' n' Hd' Hc. unfold store_term. destruct (c_is_optimal c v b d' n'); [exact Hc|]. destruct (is_empty x) eqn:Ex; auto. }
    auto 8.
  Qed.

  Definition low_rec (rec : solver_fun) : Prop := forall v b ub d n s, d <= 2 -> Ps s -> Ps (snd (rec v b ub d n s)).

  Lemma low_size rec d n f bc sw lv lbr rv rbr L ls : d <= 3 -> low_rec rec -> Ps (l_st L) ->
    Ps (l_st (fst (size_step T G rec d n f bc sw lv lbr rv rbr L ls))).
  Proof.
    intros Hd Hr HL. unfold size_step.
    destruct (lr_lb T G (l_st L) f bc lv lbr _ ls rv rbr _ _) as [[lb llb] rlb].
    destruct (c_ub G && tk_sdom T (nd_sol (l_ub L)) (nd_sol lb)); [exact HL|].
    destruct (tk_eq T (nd_sol lb) (nd_sol (l_sols L))); [exact HL|].
    match goal with |- context [rec lv lbr ?u ?d1 ?n1 ?s1] => pose proof (Hr lv lbr u d1 n1 s1 ltac:(lia) HL) as F1; destruct (rec lv lbr u d1 n1 s1) as [lsol s1'] end.
    cbn [snd] in F1. pose proof (low_time s1' F1) as F2. destruct (in_time G s1') as [ok1 s1]. cbn [snd] in F2.
    destruct ok1; cbn [negb]; [|exact F2].
    destruct (is_empty lsol).
    { destruct (lr_lb T G s1 f bc lv lbr _ ls rv rbr _ _) as [[? ?] ?]. exact F2. }
    match goal with |- context [rec rv rbr ?u ?d1 ?n1 ?s1] => pose proof (Hr rv rbr u d1 n1 s1 ltac:(lia) F2) as F3; destruct (rec rv rbr u d1 n1 s1) as [rsol s2'] end.
    cbn [snd] in F3. pose proof (low_time s2' F3) as F4. destruct (in_time G s2') as [ok2 s2]. cbn [snd] in F4.
    destruct ok2; cbn [negb]; [|exact F4].
    destruct (is_empty rsol).
    { destruct (lr_lb T G s2 f bc lv lbr _ ls rv rbr _ _) as [[? ?] ?]. exact F4. }
    match goal with |- context [if ?c then _ else _] => destruct c end; exact F4.
  Qed.
  Lemma low_sizes (step : loop -> nat -> loop * bool) sizes : forall L,
    (forall L k, Ps (l_st L) -> Ps (l_st (fst (step L k)))) -> Ps (l_st L) -> Ps (l_st (size_loop step L sizes)).
  Proof.
    induction sizes as [|k r IH]; intros L H HL; cbn [size_loop]; [exact HL|].
    pose proof (H L k HL) as H1. destruct (step L k) as [L' stop]. cbn [fst] in H1. destruct stop; auto.
  Qed.
  Lemma low_feature rec v b d n f L L' : d <= 3 -> low_rec rec -> Ps (l_st L) -> feature_step T G rec v b d n f L = Some L' -> Ps (l_st L').
  Proof.
    intros Hd Hr HL. unfold feature_step.
    destruct (br_has b f || negb (tk_may T f) || c_redundant G f); [intro H; injection H as <-; exact HL|].
    destruct (tk_sparse T && c_ub G && (nd_sol (l_ub L) <? get_bc T v b f)%Z); [discriminate|].
    destruct (negb (sat_mls G (split_left f v) 1) || negb (sat_mls G (split_right f v) 1)); [intro H; injection H as <-; exact HL|].
    destruct (vsize (split_left f v) <? vsize (split_right f v)); intro H; injection H as <-;
      (apply low_sizes; [intros L0 k H0; apply low_size; assumption|exact HL]).
  Qed.
  Lemma low_features rec v b d n blb fs : d <= 3 -> low_rec rec -> forall L, Ps (l_st L) -> Ps (l_st (feature_loop T G rec v b d n blb L fs)).
  Proof.
    intros Hd Hr. induction fs as [|f fs IH]; intros L HL; cbn [feature_loop]; [exact HL|].
    pose proof (low_time (l_st L) HL) as F. destruct (in_time G (l_st L)) as [ok s]. cbn [snd] in F.
    destruct ok; cbn [negb]; [|exact F].
    match goal with |- context [if ?c then _ else _] => destruct c; [exact F|] end.
    match goal with |- context [if ?c then _ else _] => destruct c; [exact F|] end.
    destruct (feature_step T G rec v b d n f (with_st L s)) as [L'|] eqn:Ef; [|exact F].
    apply IH. eapply low_feature; [exact Hd|exact Hr| |exact Ef]. exact F.
  Qed.
  Lemma low_general rec v b ub d n s : d <= 2 -> low_rec rec -> Ps s -> Ps (snd (general_case T G rec v b ub d n s)).
  Proof.
    intros Hd Hr Hs. unfold general_case. destruct (solve_leaf T G v ub) as [sols u].
    destruct (negb (sat_mls G v 2)); [exact Hs|].
    match goal with |- context [let '(a, c) := ?x in _] => destruct x as [sols' u'] end.
    cbn [snd]. apply low_archive.
    match goal with |- context [feature_loop T G rec v b d n ?blb ?L ?fs] => pose proof (low_features rec v b d n blb fs ltac:(lia) Hr L Hs) as H; set (L' := feature_loop T G rec v b d n blb L fs) in * end.
    rewrite <- (low_set_c_same (l_st L')) in H.
    destruct (is_empty (l_sols L')) eqn:E; cbn [negb]; [destruct (tk_eq T _ _); apply Hupd; exact H|apply Hstore; assumption].
  Qed.
  Lemma low_sub fuel : low_rec (solve_sub T G fuel).
  Proof.
    induction fuel as [|fuel IH]; intros v b ub d0 n0 s Hd Hs; cbn [solve_sub]; [apply Herr; exact Hs|].
    pose proof (low_time s Hs) as F. destruct (in_time G s) as [ok s1]. cbn [snd] in F.
    destruct ok; cbn [negb]; [|exact F]. unfold reduce_budget. rewrite Hsparse. rename d0 into d. rename n0 into n.
    destruct (_ || _); [exact F|]. destruct (negb (is_empty _)); [exact F|].
    assert (Hc : forall s2, Ps s2 ->
      Ps (snd (if c_term G && (d <=? 2) then solve_terminal T G v b ub d n s2 else general_case T G (solve_sub T G fuel) v b ub d n s2))).
    { intros s2 F2. destruct (c_term G && (d <=? 2)); [apply low_terminal|apply low_general]; assumption. }
    destruct (Model_Solver.c_lb G); [|apply Hc; exact F].
    pose proof (low_sim s1 v b d n F) as F1. destruct (update_sim T G s1 v b d n) as [upd s2]. cbn [snd] in F1.
    destruct (_ && negb _); [exact F1|]. destruct (_ && tk_sdom T _ _); [exact F1|]. destruct (tk_eq T _ _); [exact F1|]. apply Hc. exact F1.
  Qed.
End KeepLow.
