(** Properties of the state that every elementary operation keeps are kept by the search. *)
From Coq Require Import List Arith Bool Lia ZArith.
From Verif Require Import Model_FeatureVector Model_Data Model_Node Model_Cache Model_Terminal Model_Solver.
Import ListNotations.
Local Open Scope nat_scope.

Section Keep.
  Context (T : task) (G : cfg) (Ps : st -> Prop).
  Hypothesis Htime : forall s, Ps s -> Ps (snd (in_time G s)).
  Hypothesis Har : forall s a, Ps s -> Ps (set_ar s a).
  Hypothesis Hon : forall s, Ps s -> Ps (set_on s false).
  Hypothesis Herr : forall s, Ps s -> Ps (set_err s).
  Hypothesis Hstore : forall s c v b sol d n, is_empty sol = false -> Ps (set_c s c) -> Ps (set_c s (c_store c v b sol d n)).
  Hypothesis Hupd : forall s c v b lb d n, Ps (set_c s c) -> Ps (set_c s (c_upd_lb T c v b lb d n)).
  Hypothesis Htransfer : forall s c b1 b2, Ps (set_c s c) -> Ps (set_c s (c_transfer T c b1 b2)).

  Lemma set_c_same s : set_c s (s_c s) = s.
  Proof. destruct s. reflexivity. Qed.
  Definition keep_time := Htime.
  Lemma keep_archive s v b d : Ps s -> Ps (update_archive G s v b d).
  Proof. unfold update_archive. case (c_sim G); auto. Qed.
  Lemma keep_sim_loop s ar v b d n : forall c lb, Ps (set_c s c) -> Ps (set_c s (snd (sim_loop T ar v b d n c lb))).
  Proof.
    induction ar as [|[ev eb] ar IH]; intros c lb Hc; cbn [sim_loop]; [exact Hc|].
    destruct (_ <? _); [apply IH; exact Hc|]. destruct (sim_skip _ _ _); [apply IH; exact Hc|].
    destruct (_ =? _); [|apply IH; exact Hc]. destruct (c_is_optimal _ _ _ _ _); [apply Htransfer; exact Hc|].
    apply IH. apply Htransfer. exact Hc.
  Qed.
  Lemma keep_sim s v b d n : Ps s -> Ps (snd (update_sim T G s v b d n)).
  Proof.
    intro H. unfold update_sim. destruct (c_sim G); [|exact H].
    rewrite <- (set_c_same s) in H.
    pose proof (keep_sim_loop s (s_ar s d) v b d n (s_c s) init_lb H) as H'. destruct (sim_loop _ _ _ _ _ _ _ _) as [[lb opt] c]. cbn [snd] in H'.
    destruct (is_empty lb); [exact H'|]. destruct opt; [exact H'|]. destruct (tk_eq T _ _); [exact H'|]. cbn [snd]. apply (Hupd (set_c s c)). exact H'.
  Qed.
  Lemma keep_terminal v b ub d n s : Ps s -> Ps (snd (solve_terminal T G v b ub d n s)).
  Proof.
    intro H. rewrite <- (set_c_same s) in H. unfold solve_terminal. cbn [snd]. apply keep_archive.
    assert (E : forall c x d' n', Ps (set_c s c) -> Ps (set_c s (store_term T c v b ub x d' n'))).
    { intros c x d' n' Hc. unfold store_term. destruct (c_is_optimal c v b d' n'); [exact Hc|]. destruct (is_empty x) eqn:Ex; auto. }
    auto.
  Qed.

  Definition rec_keep (rec : solver_fun) : Prop := forall v b ub d n s, Ps s -> Ps (snd (rec v b ub d n s)).

  Lemma keep_size rec d n f bc sw lv lbr rv rbr L ls : rec_keep rec -> Ps (l_st L) ->
    Ps (l_st (fst (size_step T G rec d n f bc sw lv lbr rv rbr L ls))).
  Proof.
    intros Hr HL. unfold size_step.
    destruct (lr_lb T G (l_st L) f bc lv lbr _ ls rv rbr _ _) as [[lb llb] rlb].
    destruct (c_ub G && tk_sdom T (nd_sol (l_ub L)) (nd_sol lb)); [exact HL|].
    destruct (tk_eq T (nd_sol lb) (nd_sol (l_sols L))); [exact HL|].
    match goal with |- context [rec lv lbr ?u ?d1 ?n1 ?s1] => pose proof (Hr lv lbr u d1 n1 s1 HL) as F1; destruct (rec lv lbr u d1 n1 s1) as [lsol s1'] end.
    cbn [snd] in F1. pose proof (keep_time s1' F1) as F2. destruct (in_time G s1') as [ok1 s1]. cbn [snd] in F2.
    destruct ok1; cbn [negb]; [|exact F2].
    destruct (is_empty lsol).
    { destruct (lr_lb T G s1 f bc lv lbr _ ls rv rbr _ _) as [[? ?] ?]. exact F2. }
    match goal with |- context [rec rv rbr ?u ?d1 ?n1 ?s1] => pose proof (Hr rv rbr u d1 n1 s1 F2) as F3; destruct (rec rv rbr u d1 n1 s1) as [rsol s2'] end.
    cbn [snd] in F3. pose proof (keep_time s2' F3) as F4. destruct (in_time G s2') as [ok2 s2]. cbn [snd] in F4.
    destruct ok2; cbn [negb]; [|exact F4].
    destruct (is_empty rsol).
    { destruct (lr_lb T G s2 f bc lv lbr _ ls rv rbr _ _) as [[? ?] ?]. exact F4. }
    match goal with |- context [if ?c then _ else _] => destruct c end; exact F4.
  Qed.
  Lemma keep_sizes (step : loop -> nat -> loop * bool) sizes : forall L,
    (forall L k, Ps (l_st L) -> Ps (l_st (fst (step L k)))) -> Ps (l_st L) -> Ps (l_st (size_loop step L sizes)).
  Proof.
    induction sizes as [|k r IH]; intros L H HL; cbn [size_loop]; [exact HL|].
    pose proof (H L k HL) as H1. destruct (step L k) as [L' stop]. cbn [fst] in H1. destruct stop; auto.
  Qed.
  Lemma keep_feature rec v b d n f L L' : rec_keep rec -> Ps (l_st L) -> feature_step T G rec v b d n f L = Some L' -> Ps (l_st L').
  Proof.
    intros Hr HL. unfold feature_step.
    destruct (br_has b f || negb (tk_may T f) || c_redundant G f); [intro H; injection H as <-; exact HL|].
    destruct (tk_sparse T && c_ub G && (nd_sol (l_ub L) <? get_bc T v b f)%Z); [discriminate|].
    destruct (negb (sat_mls G (split_left f v) 1) || negb (sat_mls G (split_right f v) 1)); [intro H; injection H as <-; exact HL|].
    destruct (vsize (split_left f v) <? vsize (split_right f v)); intro H; injection H as <-;
      (apply keep_sizes; [intros L0 k H0; apply keep_size; assumption|exact HL]).
  Qed.
  Lemma keep_features rec v b d n blb fs : rec_keep rec -> forall L, Ps (l_st L) -> Ps (l_st (feature_loop T G rec v b d n blb L fs)).
  Proof.
    intro Hr. induction fs as [|f fs IH]; intros L HL; cbn [feature_loop]; [exact HL|].
    pose proof (keep_time (l_st L) HL) as F. destruct (in_time G (l_st L)) as [ok s]. cbn [snd] in F.
    destruct ok; cbn [negb]; [|exact F].
    match goal with |- context [if ?c then _ else _] => destruct c; [exact F|] end.
    match goal with |- context [if ?c then _ else _] => destruct c; [exact F|] end.
    destruct (feature_step T G rec v b d n f (with_st L s)) as [L'|] eqn:Ef; [|exact F].
    apply IH. eapply keep_feature; [exact Hr| |exact Ef]. exact F.
  Qed.
  Lemma keep_general rec v b ub d n s : rec_keep rec -> Ps s -> Ps (snd (general_case T G rec v b ub d n s)).
  Proof.
    intros Hr Hs. unfold general_case. destruct (solve_leaf T G v ub) as [sols u].
    destruct (negb (sat_mls G v 2)); [exact Hs|].
    match goal with |- context [let '(a, c) := ?x in _] => destruct x as [sols' u'] end.
    cbn [snd]. apply keep_archive.
    match goal with |- context [feature_loop T G rec v b d n ?blb ?L ?fs] => pose proof (keep_features rec v b d n blb fs Hr L Hs) as H; set (L' := feature_loop T G rec v b d n blb L fs) in * end.
    rewrite <- (set_c_same (l_st L')) in H.
    destruct (is_empty (l_sols L')) eqn:E; cbn [negb]; [destruct (tk_eq T _ _); apply Hupd; exact H|apply Hstore; assumption].
  Qed.
  Lemma keep_sub fuel : rec_keep (solve_sub T G fuel).
  Proof.
    induction fuel as [|fuel IH]; intros v b ub d0 n0 s Hs; cbn [solve_sub]; [apply Herr; exact Hs|].
    pose proof (keep_time s Hs) as F. destruct (in_time G s) as [ok s1]. cbn [snd] in F.
    destruct ok; cbn [negb]; [|exact F]. destruct (reduce_budget T v b ub d0 n0) as [d n].
    destruct (_ || _); [exact F|]. destruct (negb (is_empty _)); [exact F|].
    assert (Hc : forall s2, Ps s2 ->
      Ps (snd (if c_term G && (d <=? 2) then solve_terminal T G v b ub d n s2 else general_case T G (solve_sub T G fuel) v b ub d n s2))).
    { intros s2 F2. destruct (c_term G && (d <=? 2)); [apply keep_terminal|apply keep_general]; assumption. }
    destruct (Model_Solver.c_lb G); [|apply Hc; exact F].
    pose proof (keep_sim s1 v b d n F) as F1. destruct (update_sim T G s1 v b d n) as [upd s2]. cbn [snd] in F1.
    destruct (_ && negb _); [exact F1|]. destruct (_ && tk_sdom T _ _); [exact F1|]. destruct (tk_eq T _ _); [exact F1|]. apply Hc. exact F1.
  Qed.
  Lemma keep_child v b d n a s : Ps s -> Ps (snd (child_sol T G v b d n a s)).
  Proof.
    intro H. unfold child_sol. destruct (if cache_used (s_c s) then _ else None) as [[sol k]|]; [exact H|].
    pose proof (keep_sub (S (Nat.min (d - 1) a)) v b (init_sol T) (Nat.min (d - 1) a) a s H) as H1.
    destruct (solve_sub _ _ _ _ _ _ _ _ s) as [sol s1]. cbn [snd] in H1. destruct (is_empty sol); [|exact H1].
    pose proof (keep_sub (S (Nat.min (d - 1) a)) v b (init_sol T) (Nat.min (d - 1) a) a s1 H1) as H2.
    destruct (solve_sub _ _ _ _ _ _ _ _ s1) as [sol2 s2]. exact H2.
  Qed.
  Lemma keep_construct fuel : forall sol v b d n s, Ps s -> Ps (snd (construct T G fuel sol v b d n s)).
  Proof.
    induction fuel as [|fuel IH]; intros sol v b d0 n0 s Hs0; cbn [construct]; [apply Herr; exact Hs0|].
    pose proof (Hon s Hs0) as Hs. clear Hs0.
    destruct (_ || _ || _); [exact Hs|]. destruct (if c_term G && _ && _ then _ else None); [exact Hs|].
    destruct (nd_feat sol) as [f|]; [|exact Hs].
    match goal with |- context [child_sol T G (split_left f v) ?b1 ?d1 ?n1 ?a1 ?s1] => pose proof (keep_child (split_left f v) b1 d1 n1 a1 s1 Hs) as F1; destruct (child_sol T G (split_left f v) b1 d1 n1 a1 s1) as [[[lsol ld] ls] s2] end.
    cbn [snd] in F1.
    match goal with |- context [child_sol T G (split_right f v) ?b1 ?d1 ?n1 ?a1 ?s1] => pose proof (keep_child (split_right f v) b1 d1 n1 a1 s1 F1) as F2; destruct (child_sol T G (split_right f v) b1 d1 n1 a1 s1) as [[[rsol rd] rs] s3] end.
    cbn [snd] in F2.
    pose proof (IH lsol (split_left f v) (br_left b f) ld ls s3 F2) as F3. destruct (construct T G fuel lsol _ _ ld ls s3) as [lt s4]. cbn [snd] in F3.
    pose proof (IH rsol (split_right f v) (br_right b f) rd rs s4 F3) as F4. destruct (construct T G fuel rsol _ _ rd rs s4) as [rt s5]. exact F4.
  Qed.
End Keep.

Lemma used_store c v b sol d n : cache_used (c_store c v b sol d n) = cache_used c.
Proof. unfold c_store, cache_used. destruct (cc_use_branch c) eqn:E; cbn [bc_set cc_use_branch cc_use_data]; destruct (cc_use_data c) eqn:E2; cbn [dc_set bc_set cc_use_branch cc_use_data]; rewrite ?E, ?E2; reflexivity. Qed.
Lemma used_upd T c v b lb d n : cache_used (c_upd_lb T c v b lb d n) = cache_used c.
Proof.
  unfold c_upd_lb, cache_used. destruct (cc_use_lb c); [|reflexivity].
  destruct (cc_use_branch c) eqn:E; cbn [bc_set cc_use_branch cc_use_data]; destruct (cc_use_data c) eqn:E2; cbn [dc_set bc_set cc_use_branch cc_use_data]; rewrite ?E, ?E2; reflexivity.
Qed.
Lemma used_transfer T c b1 b2 : cache_used (c_transfer T c b1 b2) = cache_used c.
Proof.
  unfold c_transfer. destruct (_ || _ || _); [reflexivity|]. destruct (alookup _ b1 _); [|reflexivity].
  destruct (alookup _ b2 _); [destruct (_ =? _)|]; reflexivity.
Qed.
Lemma used_sub T G fuel v b ub d n s u : cache_used (s_c s) = u -> cache_used (s_c (snd (solve_sub T G fuel v b ub d n s))) = u.
Proof.
  apply (keep_sub T G (fun s => cache_used (s_c s) = u)); intros; cbn [set_c set_ar set_on set_err s_c] in *; rewrite ?used_store, ?used_upd, ?used_transfer; try assumption.
  unfold in_time. destruct (s_on s0); assumption.
Qed.
Lemma late_sub T G : (forall i, c_clk G i = true) -> forall fuel v b ub d n s, s_late s = false -> s_late (snd (solve_sub T G fuel v b ub d n s)) = false.
Proof.
  intros Hc fuel. apply (keep_sub T G (fun s => s_late s = false)); auto. intros s Hs. unfold in_time. rewrite Hs, Hc. destruct (s_on s); [reflexivity|exact Hs].
Qed.
