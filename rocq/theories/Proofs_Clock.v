(** A search that ends in time is the search without a time limit. *)
From Coq Require Import List Arith Bool Lia ZArith.
From Verif Require Import Model_FeatureVector Model_Data Model_Node Model_Cache Model_Terminal Model_Solver Model_Heap Model_Preproc Proofs_Keep.
Import ListNotations.
Local Open Scope nat_scope.

Definition relimit (G : cfg) (clk' : nat -> bool) : cfg :=
  Cfg (c_ub G) (c_lb G) (c_tlb G) (c_term G) (c_sim G) (c_mls G) (c_nf G) (c_redundant G) (c_order G) clk'.

Section Clock.
  Context (T : task) (G : cfg) (clk' : nat -> bool).
  Notation G' := (relimit G clk').
  Ltac same := try change (c_ub G') with (c_ub G); try change (Model_Solver.c_lb G') with (Model_Solver.c_lb G);
    try change (c_term G') with (c_term G); try change (c_order G') with (c_order G); try change (c_redundant G') with (c_redundant G);
    try change (c_nf G') with (c_nf G); try change (c_mls G') with (c_mls G).
  Hypothesis Hclk : forall i, clk' i = true.

  (** The two runs agree, or the first one is past the limit. *)
  Definition agree {A} (p p' : A * st) : Prop := s_late (snd p) = true \/ p = p'.
  Definition agree_s (s s' : st) : Prop := s_late s = true \/ s = s'.

  Lemma time_late_mono s : s_late s = true -> s_late (snd (in_time G s)) = true.
  Proof. intro H. unfold in_time. rewrite H. destruct (s_on s); [reflexivity|exact H]. Qed.
  Lemma time_agree s : agree (in_time G s) (in_time G' s).
  Proof.
    unfold agree, in_time. change (c_clk G') with clk'. rewrite Hclk. destruct (s_on s); [|right; reflexivity].
    destruct (s_late s); [left; reflexivity|]. destruct (c_clk G (s_tick s)); [right; reflexivity|left; reflexivity].
  Qed.
  Lemma time_off s : s_on s = false -> in_time G s = (true, s).
  Proof. unfold in_time. intros ->. reflexivity. Qed.

  Lemma archive_late s v b d : s_late (update_archive G s v b d) = s_late s /\ s_on (update_archive G s v b d) = s_on s.
  Proof. unfold update_archive. destruct (c_sim G); auto. Qed.
  Lemma sim_late s v b d n : s_late (snd (update_sim T G s v b d n)) = s_late s /\ s_on (snd (update_sim T G s v b d n)) = s_on s.
  Proof.
    unfold update_sim. destruct (c_sim G); [|auto]. destruct (sim_loop _ _ _ _ _ _ _ _) as [[lb o] c].
    destruct (is_empty lb); [auto|]. destruct o; [auto|]. destruct (tk_eq _ _ _); auto.
  Qed.
  Lemma terminal_late v b ub d n s : s_late (snd (solve_terminal T G v b ub d n s)) = s_late s /\ s_on (snd (solve_terminal T G v b ub d n s)) = s_on s.
  Proof. unfold solve_terminal. cbn [snd]. destruct (archive_late (set_c s (store_term T (store_term T (store_term T (s_c s) v b ub (r_one (term_solve T (c_nf G) (c_mls G) v b n)) 1 1) v b ub (r_two (term_solve T (c_nf G) (c_mls G) v b n)) 2 2) v b ub (r_three (term_solve T (c_nf G) (c_mls G) v b n)) 2 3)) v b d) as [A B]. cbv zeta. rewrite A, B. auto. Qed.

  (** Lateness is kept, and nothing becomes late while the clock is off. *)
  Definition steady (s s' : st) : Prop := s_on s' = s_on s /\ (s_late s = true -> s_late s' = true) /\ (s_on s = false -> s_late s' = s_late s).
  Lemma steady_refl s : steady s s.
  Proof. split; [reflexivity|]. auto. Qed.
  Lemma steady_trans a b c : steady a b -> steady b c -> steady a c.
  Proof. intros (A1 & A2 & A3) (B1 & B2 & B3). split; [congruence|]. split; [auto|]. intro H. rewrite B3 by congruence. auto. Qed.
  Lemma steady_eq s s' : s_on s' = s_on s -> s_late s' = s_late s -> steady s s'.
  Proof. intros A B. split; [exact A|]. split; congruence. Qed.
  Lemma steady_time s : steady s (snd (in_time G s)).
  Proof.
    split; [unfold in_time; destruct (s_on s) eqn:E; [reflexivity|exact E]|]. split; [apply time_late_mono|].
    intro H. rewrite time_off by exact H. reflexivity.
  Qed.
  Lemma steady_archive s v b d : steady s (update_archive G s v b d).
  Proof. destruct (archive_late s v b d). apply steady_eq; assumption. Qed.
  Lemma steady_c s c : steady s (set_c s c).
  Proof. apply steady_eq; reflexivity. Qed.
  Lemma steady_sim s v b d n : steady s (snd (update_sim T G s v b d n)).
  Proof. destruct (sim_late s v b d n). apply steady_eq; assumption. Qed.
  Lemma steady_terminal v b ub d n s : steady s (snd (solve_terminal T G v b ub d n s)).
  Proof. destruct (terminal_late v b ub d n s). apply steady_eq; assumption. Qed.

  Definition rec_ok (rec rec' : solver_fun) : Prop := forall v b ub d n s,
    steady s (snd (rec v b ub d n s)) /\ agree (rec v b ub d n s) (rec' v b ub d n s).

  Lemma size_ok rec rec' d n f bc sw lv lbr rv rbr L ls : rec_ok rec rec' ->
    let x := size_step T G rec d n f bc sw lv lbr rv rbr L ls in
    steady (l_st L) (l_st (fst x)) /\ (s_late (l_st (fst x)) = true \/ x = size_step T G' rec' d n f bc sw lv lbr rv rbr L ls).
  Proof.
    intros Hr x. unfold x, size_step. clear x. same.
    change (lr_lb T G') with (lr_lb T G). change (subtract_ubs T G') with (subtract_ubs T G). change (upd_ub G') with (upd_ub G).
    destruct (lr_lb T G (l_st L) f bc lv lbr _ ls rv rbr _ _) as [[lb llb] rlb].
    destruct (c_ub G && tk_sdom T (nd_sol (l_ub L)) (nd_sol lb)); [split; [apply steady_refl|right; reflexivity]|].
    destruct (tk_eq T (nd_sol lb) (nd_sol (l_sols L))); [split; [apply steady_refl|right; reflexivity]|].
    match goal with |- context [rec lv lbr ?u ?d1 ?n1 ?s1] => destruct (Hr lv lbr u d1 n1 s1) as [F1 A1]; destruct (rec lv lbr u d1 n1 s1) as [lsol s1'] eqn:E1 end.
    cbn [snd] in F1. pose proof (steady_time s1') as F2. pose proof (time_agree s1') as A2.
    destruct (in_time G s1') as [ok1 s1]. cbn [snd] in F2. pose proof (steady_trans _ _ _ F1 F2) as F12.
    assert (Late1 : s_late s1' = true -> s_late s1 = true) by apply F2.
    destruct ok1; cbn [negb].
    2:{ split; [exact F12|]. destruct A1 as [A1|<-]; [left; apply Late1; exact A1|]. destruct A2 as [A2|<-]; [left; exact A2|right; reflexivity]. }
    destruct (is_empty lsol) eqn:El.
    { destruct (lr_lb T G s1 f bc lv lbr _ ls rv rbr _ _) as [[lb2 ?] ?] eqn:E2. split; [exact F12|].
      destruct A1 as [A1|<-]; [left; apply Late1; exact A1|]. destruct A2 as [A2|<-]; [left; exact A2|].
      cbn [negb]. rewrite El, E2. right. reflexivity. }
    match goal with |- context [rec rv rbr ?u ?d1 ?n1 ?s1] => destruct (Hr rv rbr u d1 n1 s1) as [F3 A3]; destruct (rec rv rbr u d1 n1 s1) as [rsol s2'] eqn:E3 end.
    cbn [snd] in F3. pose proof (steady_time s2') as F4. pose proof (time_agree s2') as A4.
    destruct (in_time G s2') as [ok2 s2]. cbn [snd] in F4. pose proof (steady_trans _ _ _ F12 (steady_trans _ _ _ F3 F4)) as F14.
    assert (Late2 : s_late s2' = true -> s_late s2 = true) by apply F4.
    assert (Late3 : s_late s1 = true -> s_late s2 = true) by (intro H; apply Late2; apply F3; exact H).
    assert (Late4 : s_late s1' = true -> s_late s2 = true) by (intro H; auto).
    destruct A1 as [A1|<-].
    { specialize (Late4 A1). destruct ok2; cbn [negb]; [|split; [exact F14|left; exact Late4]].
      destruct (is_empty rsol); [destruct (lr_lb T G s2 f bc lv lbr _ ls rv rbr _ _) as [[? ?] ?]; split; [exact F14|left; exact Late4]|].
      match goal with |- context [if ?c then _ else _] => destruct c end; (split; [exact F14|left; exact Late4]). }
    destruct A2 as [A2|<-].
    { specialize (Late3 A2). destruct ok2; cbn [negb]; [|split; [exact F14|left; exact Late3]].
      destruct (is_empty rsol); [destruct (lr_lb T G s2 f bc lv lbr _ ls rv rbr _ _) as [[? ?] ?]; split; [exact F14|left; exact Late3]|].
      match goal with |- context [if ?c then _ else _] => destruct c end; (split; [exact F14|left; exact Late3]). }
    cbn [negb]. rewrite El.
    destruct A3 as [A3|<-].
    { specialize (Late2 A3). destruct ok2; cbn [negb]; [|split; [exact F14|left; exact Late2]].
      destruct (is_empty rsol); [destruct (lr_lb T G s2 f bc lv lbr _ ls rv rbr _ _) as [[? ?] ?]; split; [exact F14|left; exact Late2]|].
      match goal with |- context [if ?c then _ else _] => destruct c end; (split; [exact F14|left; exact Late2]). }
    destruct A4 as [A4|<-].
    { cbn [snd] in A4. destruct ok2; cbn [negb]; [|split; [exact F14|left; exact A4]].
      destruct (is_empty rsol); [destruct (lr_lb T G s2 f bc lv lbr _ ls rv rbr _ _) as [[? ?] ?]; split; [exact F14|left; exact A4]|].
      match goal with |- context [if ?c then _ else _] => destruct c end; (split; [exact F14|left; exact A4]). }
    split; [|right; reflexivity].
    destruct ok2; cbn [negb]; [|exact F14].
    destruct (is_empty rsol); [destruct (lr_lb T G s2 f bc lv lbr _ ls rv rbr _ _) as [[? ?] ?]; exact F14|].
    match goal with |- context [if ?c then _ else _] => destruct c end; exact F14.
  Qed.

  Lemma sizes_ok (step step' : loop -> nat -> loop * bool) sizes :
    (forall L k, steady (l_st L) (l_st (fst (step L k))) /\ (s_late (l_st (fst (step L k))) = true \/ step L k = step' L k)) ->
    forall L, steady (l_st L) (l_st (size_loop step L sizes))
      /\ (s_late (l_st (size_loop step L sizes)) = true \/ size_loop step L sizes = size_loop step' L sizes).
  Proof.
    intro H. induction sizes as [|k r IH]; intro L; cbn [size_loop]; [split; [apply steady_refl|right; reflexivity]|].
    destruct (H L k) as [H1 H2]. destruct (step L k) as [L' stop]. cbn [fst] in *. destruct (IH L') as [I1 I2].
    destruct stop.
    - split; [exact H1|]. destruct H2 as [H2|<-]; [left; exact H2|right; reflexivity].
    - split; [eapply steady_trans; eassumption|]. destruct H2 as [H2|<-]; [left; apply I1; exact H2|exact I2].
  Qed.

  Lemma feature_ok rec rec' v b d n f L : rec_ok rec rec' ->
    match feature_step T G rec v b d n f L with
    | None => feature_step T G' rec' v b d n f L = None
    | Some L' => steady (l_st L) (l_st L') /\ (s_late (l_st L') = true \/ feature_step T G' rec' v b d n f L = Some L')
    end.
  Proof.
    intro Hr. unfold feature_step. same. change (sat_mls G') with (sat_mls G).
    destruct (br_has b f || negb (tk_may T f) || c_redundant G f); [split; [apply steady_refl|right; reflexivity]|].
    destruct (tk_sparse T && c_ub G && (nd_sol (l_ub L) <? get_bc T v b f)%Z); [reflexivity|].
    destruct (negb (sat_mls G (split_left f v) 1) || negb (sat_mls G (split_right f v) 1)); [split; [apply steady_refl|right; reflexivity]|].
    destruct (vsize (split_left f v) <? vsize (split_right f v));
      match goal with |- context [size_loop (size_step T G rec d n f ?bc ?sw ?a ?b1 ?c ?b2) L ?sz] =>
        destruct (sizes_ok (size_step T G rec d n f bc sw a b1 c b2) (size_step T G' rec' d n f bc sw a b1 c b2) sz
          (fun L0 k => size_ok rec rec' d n f bc sw a b1 c b2 L0 k Hr) L) as [S1 S2] end;
      (split; [exact S1|]); (destruct S2 as [S2|<-]; [left; exact S2|right; reflexivity]).
  Qed.

  Lemma features_ok rec rec' v b d n blb fs : rec_ok rec rec' -> forall L,
    steady (l_st L) (l_st (feature_loop T G rec v b d n blb L fs))
    /\ (s_late (l_st (feature_loop T G rec v b d n blb L fs)) = true \/ feature_loop T G rec v b d n blb L fs = feature_loop T G' rec' v b d n blb L fs).
  Proof.
    intro Hr. induction fs as [|f fs IH]; intro L; cbn [feature_loop]; [split; [apply steady_refl|right; reflexivity]|].
    same.
    pose proof (steady_time (l_st L)) as F. pose proof (time_agree (l_st L)) as A.
    destruct (in_time G (l_st L)) as [ok s]. cbn [snd] in F.
    assert (HA : s_late s = true \/ (ok, s) = in_time G' (l_st L)) by exact A. clear A.
    assert (Hcase : forall x x', steady (l_st L) (l_st x) -> (s_late s = true -> s_late (l_st x) = true) ->
      ((ok, s) = in_time G' (l_st L) -> s_late (l_st x) = true \/ x = x') ->
      steady (l_st L) (l_st x) /\ (s_late (l_st x) = true \/ x = x')).
    { intros x x' H1 H2 H3. split; [exact H1|]. destruct HA as [HA|HA]; [left; auto|auto]. }
    apply Hcase; clear Hcase.
    - destruct ok; cbn [negb]; [|exact F].
      match goal with |- context [if ?c then _ else _] => destruct c; [exact F|] end.
      match goal with |- context [if ?c then _ else _] => destruct c; [exact F|] end.
      pose proof (feature_ok rec rec' v b d n f (with_st L s) Hr) as Hf.
      destruct (feature_step T G rec v b d n f (with_st L s)) as [L'|]; [|exact F].
      destruct Hf as [Hf _]. eapply steady_trans; [exact F|]. eapply steady_trans; [exact Hf|apply IH].
    - intro HL. destruct ok; cbn [negb]; [|exact HL].
      match goal with |- context [if ?c then _ else _] => destruct c; [exact HL|] end.
      match goal with |- context [if ?c then _ else _] => destruct c; [exact HL|] end.
      pose proof (feature_ok rec rec' v b d n f (with_st L s) Hr) as Hf.
      destruct (feature_step T G rec v b d n f (with_st L s)) as [L'|]; [|exact HL].
      destruct Hf as [Hf _]. apply (IH L'). apply Hf. exact HL.
    - intros <-. destruct ok; cbn [negb]; [|right; reflexivity].
      match goal with |- context [if ?c then _ else _] => destruct c; [right; reflexivity|] end.
      match goal with |- context [if ?c then _ else _] => destruct c; [right; reflexivity|] end.
      pose proof (feature_ok rec rec' v b d n f (with_st L s) Hr) as Hf.
      destruct (feature_step T G rec v b d n f (with_st L s)) as [L'|]; [|rewrite Hf; right; reflexivity].
      destruct Hf as [_ [Hf|Hf]]; [left; apply (IH L'); exact Hf|]. rewrite Hf. apply IH.
  Qed.

  Lemma general_ok rec rec' : rec_ok rec rec' -> rec_ok (general_case T G rec) (general_case T G' rec').
  Proof.
    intros Hr v b ub d n s. unfold general_case. same.
    change (solve_leaf T G') with (solve_leaf T G). change (sat_mls G') with (sat_mls G).
    change (compute_lb T G') with (compute_lb T G). change (update_archive G') with (update_archive G).
    destruct (solve_leaf T G v ub) as [sols u].
    destruct (negb (sat_mls G v 2)); [split; [apply steady_refl|right; reflexivity]|].
    match goal with |- context [let '(a, c) := ?x in _] => destruct x as [sols' u'] end.
    destruct (features_ok rec rec' v b d n (compute_lb T G s v b d n) (c_order G v) Hr (Loop u' sols' (init_sol T) s)) as [F1 F2].
    split.
    - cbn [snd]. eapply steady_trans; [exact F1|]. eapply steady_trans; [|apply steady_archive]. apply steady_c.
    - destruct F2 as [F2|<-]; [left|right; reflexivity]. cbn [snd].
      match goal with |- s_late (update_archive G ?x v b d) = true => destruct (archive_late x v b d) as [-> _] end. exact F2.
  Qed.

  Lemma sub_ok fuel : rec_ok (solve_sub T G fuel) (solve_sub T G' fuel).
  Proof.
    induction fuel as [|fuel IH]; intros v b ub d0 n0 s; cbn [solve_sub]; [split; [apply steady_eq; reflexivity|right; reflexivity]|].
    same. change (solve_leaf T G') with (solve_leaf T G).
    pose proof (steady_time s) as F. pose proof (time_agree s) as A.
    destruct (in_time G s) as [ok s1]. cbn [snd] in F.
    assert (HA : s_late s1 = true \/ (ok, s1) = in_time G' s) by exact A. clear A.
    assert (Hcase : forall x x' : node * st, steady s1 (snd x) ->
      ((ok, s1) = in_time G' s -> s_late (snd x) = true \/ x = x') -> steady s (snd x) /\ agree x x').
    { intros x x' H1 H2. split; [eapply steady_trans; eassumption|]. destruct HA as [HA|HA]; [left; apply H1; exact HA|exact (H2 HA)]. }
    destruct ok; cbn [negb].
    2:{ apply Hcase; [apply steady_refl|]. intros <-. right. reflexivity. }
    destruct (reduce_budget T v b ub d0 n0) as [d n].
    assert (Hcont : forall s2, steady s2 (snd (if c_term G && (d <=? 2) then solve_terminal T G v b ub d n s2 else general_case T G (solve_sub T G fuel) v b ub d n s2))
      /\ agree (if c_term G && (d <=? 2) then solve_terminal T G v b ub d n s2 else general_case T G (solve_sub T G fuel) v b ub d n s2)
               (if c_term G && (d <=? 2) then solve_terminal T G' v b ub d n s2 else general_case T G' (solve_sub T G' fuel) v b ub d n s2)).
    { intro s2. destruct (c_term G && (d <=? 2)); [split; [apply steady_terminal|right; reflexivity]|]. apply (general_ok _ _ IH). }
    apply Hcase.
    - destruct (_ || _); [apply steady_refl|]. destruct (negb (is_empty _)); [apply steady_refl|].
      destruct (Model_Solver.c_lb G); [|apply Hcont].
      pose proof (steady_sim s1 v b d n) as F1. destruct (update_sim T G s1 v b d n) as [upd s2]. cbn [snd] in F1.
      destruct (_ && negb _); [exact F1|]. destruct (c_ub G && tk_sdom T _ _); [exact F1|]. destruct (tk_eq T _ _); [exact F1|].
      eapply steady_trans; [exact F1|apply Hcont].
    - intros <-. cbn [negb].
      destruct (_ || _); [right; reflexivity|]. destruct (negb (is_empty _)); [right; reflexivity|].
      destruct (Model_Solver.c_lb G); [|apply Hcont].
      change (update_sim T G') with (update_sim T G). change (compute_lb T G') with (compute_lb T G).
      destruct (update_sim T G s1 v b d n) as [upd s2].
      destruct (_ && negb _); [right; reflexivity|]. destruct (c_ub G && tk_sdom T _ _); [right; reflexivity|]. destruct (tk_eq T _ _); [right; reflexivity|].
      apply Hcont.
  Qed.

  Lemma child_ok v b d n a s : steady s (snd (child_sol T G v b d n a s)) /\ agree (child_sol T G v b d n a s) (child_sol T G' v b d n a s).
  Proof.
    unfold child_sol. change (scan_child T G') with (scan_child T G).
    destruct (if cache_used (s_c s) then _ else None) as [[sol k]|]; [split; [apply steady_refl|right; reflexivity]|].
    destruct (sub_ok (S (Nat.min (d - 1) a)) v b (init_sol T) (Nat.min (d - 1) a) a s) as [F1 A1].
    destruct (solve_sub T G _ _ _ _ _ _ s) as [sol s1]. cbn [snd] in F1.
    destruct (sub_ok (S (Nat.min (d - 1) a)) v b (init_sol T) (Nat.min (d - 1) a) a s1) as [F2 A2].
    destruct (solve_sub T G _ _ _ _ _ _ s1) as [sol2 s2]. cbn [snd] in F2.
    destruct (is_empty sol) eqn:Es; cbn [snd].
    - split; [eapply steady_trans; eassumption|]. destruct A1 as [A1|<-]; [left; apply F2; exact A1|]. rewrite Es.
      destruct A2 as [A2|<-]; [left; exact A2|right; reflexivity].
    - split; [exact F1|]. destruct A1 as [A1|<-]; [left; exact A1|]. rewrite Es. right. reflexivity.
  Qed.

  Lemma construct_ok fuel : forall sol v b d n s, s_late s = false ->
    s_late (snd (construct T G fuel sol v b d n s)) = false /\ construct T G fuel sol v b d n s = construct T G' fuel sol v b d n s.
  Proof.
    assert (H1 : forall {A} (s : st) (p p' : A * st), s_on s = false -> s_late s = false -> steady s (snd p) -> agree p p' ->
      s_on (snd p) = false /\ s_late (snd p) = false /\ p = p').
    { intros A s p p' Hon Hl (S1 & S2 & S3) [Ha|Ha]; [rewrite S3 in Ha by exact Hon; congruence|].
      split; [congruence|]. split; [rewrite S3; assumption|exact Ha]. }
    induction fuel as [|fuel IH]; intros sol v b d0 n0 s Hs; cbn [construct]; [split; [exact Hs|reflexivity]|].
    same.
    destruct (_ || _ || _); [split; [exact Hs|reflexivity]|]. destruct (if c_term G && _ && _ then _ else None); [split; [exact Hs|reflexivity]|].
    destruct (nd_feat sol) as [f|]; [|split; [exact Hs|reflexivity]].
    match goal with |- context [child_sol T G (split_left f v) ?b1 ?d1 ?n1 ?a1 ?s1] =>
      destruct (child_ok (split_left f v) b1 d1 n1 a1 s1) as [F1 A1];
      destruct (H1 _ s1 _ _ eq_refl Hs F1 A1) as (X1 & X2 & <-); destruct (child_sol T G (split_left f v) b1 d1 n1 a1 s1) as [[[lsol ld] ls] s2] end.
    cbn [snd] in X1, X2.
    match goal with |- context [child_sol T G (split_right f v) ?b1 ?d1 ?n1 ?a1 ?s1] =>
      destruct (child_ok (split_right f v) b1 d1 n1 a1 s1) as [F2 A2];
      destruct (H1 _ s1 _ _ X1 X2 F2 A2) as (Y1 & Y2 & <-); destruct (child_sol T G (split_right f v) b1 d1 n1 a1 s1) as [[[rsol rd] rs] s3] end.
    cbn [snd] in Y1, Y2.
    destruct (IH lsol (split_left f v) (br_left b f) ld ls s3 Y2) as [Z1 <-].
    destruct (construct T G fuel lsol _ _ ld ls s3) as [lt s4]. cbn [snd] in Z1.
    destruct (IH rsol (split_right f v) (br_right b f) rd rs s4 Z1) as [Z2 <-].
    destruct (construct T G fuel rsol _ _ rd rs s4) as [rt s5]. cbn [snd] in Z2. split; [exact Z2|reflexivity].
  Qed.

  (** The outer loops. *)
  Definition lateQ (Q : outer) : Prop := s_late (o_st Q) = true.
  Lemma outer_ok (step step' : outer -> nat -> outer * bool) :
    (forall Q k, (lateQ Q -> lateQ (fst (step Q k))) /\ (lateQ (fst (step Q k)) \/ step Q k = step' Q k)) ->
    forall ks Q, (lateQ Q -> lateQ (outer_loop step Q ks)) /\ (lateQ (outer_loop step Q ks) \/ outer_loop step Q ks = outer_loop step' Q ks).
  Proof.
    intro H. induction ks as [|k ks IH]; intro Q; cbn [outer_loop]; [auto|].
    destruct (H Q k) as [H1 H2]. destruct (step Q k) as [Q' ok]. cbn [fst] in *. destruct (IH Q') as [I1 I2]. destruct ok.
    - split; [auto|]. destruct H2 as [H2|<-]; [left; auto|exact I2].
    - split; [auto|]. destruct H2 as [H2|<-]; [left; exact H2|right; reflexivity].
  Qed.
  Lemma depth_ok P v Q k : (lateQ Q -> lateQ (fst (depth_step T G P v Q k))) /\ (lateQ (fst (depth_step T G P v Q k)) \/ depth_step T G P v Q k = depth_step T G' P v Q k).
  Proof.
    unfold depth_step, lateQ.
    destruct (sub_ok (S k) v [] (o_ub Q) k (Nat.min (p_nodes P) (2 ^ k - 1)) (o_st Q)) as [F1 A1].
    destruct (solve_sub T G _ _ _ _ _ _ (o_st Q)) as [sol s1]. cbn [snd] in F1.
    pose proof (steady_time (set_mdf s1 k)) as F2. pose proof (time_agree (set_mdf s1 k)) as A2.
    destruct (in_time G (set_mdf s1 k)) as [ok s2]. cbn [snd fst o_st] in *. split.
    - intro H. apply F2. apply F1. exact H.
    - destruct A1 as [A1|<-]; [left; apply F2; exact A1|]. destruct A2 as [A2|<-]; [left; exact A2|right; reflexivity].
  Qed.
  Lemma nodes_ok P v Q k : (lateQ Q -> lateQ (fst (nodes_step T G P v Q k))) /\ (lateQ (fst (nodes_step T G P v Q k)) \/ nodes_step T G P v Q k = nodes_step T G' P v Q k).
  Proof.
    unfold nodes_step, lateQ. pose proof (steady_time (o_st Q)) as F0. pose proof (time_agree (o_st Q)) as A0.
    destruct (in_time G (o_st Q)) as [ok0 s0]. cbn [snd] in F0. destruct ok0; cbn [negb].
    - destruct (sub_ok (S (Nat.min (p_depth P) k)) v [] (o_ub Q) (Nat.min (p_depth P) k) k s0) as [F1 A1].
      destruct (solve_sub T G _ _ _ _ _ _ s0) as [sol s1]. cbn [snd] in F1.
      pose proof (steady_time (set_mdf s1 (int_log2 (k + 1)))) as F2. pose proof (time_agree (set_mdf s1 (int_log2 (k + 1)))) as A2.
      destruct (in_time G (set_mdf s1 (int_log2 (k + 1)))) as [ok s2]. cbn [snd fst o_st] in *. split.
      + intro H. apply F2. apply F1. apply F0. exact H.
      + destruct A0 as [A0|<-]; [left; apply F2; apply F1; exact A0|]. cbn [negb].
        destruct A1 as [A1|<-]; [left; apply F2; exact A1|]. destruct A2 as [A2|<-]; [left; exact A2|right; reflexivity].
    - cbn [fst o_st]. split; [apply F0|]. destruct A0 as [A0|<-]; [left; exact A0|right; reflexivity].
  Qed.

  Theorem solve_clock P v gub s : a_proven (solve T G P v gub s) = true ->
    a_sol (solve T G P v gub s) = a_sol (solve T G' P v gub s)
    /\ a_tree (solve T G P v gub s) = a_tree (solve T G' P v gub s)
    /\ a_proven (solve T G' P v gub s) = true.
  Proof.
    unfold solve. change (first_ub T G') with (first_ub T G). destruct (first_ub T G P v gub) as [res ub].
    set (s0 := St (s_c s) (s_ar s) (s_tick s) false true 0 (s_err s)).
    match goal with |- context [in_time G (o_st ?q)] => set (Q := q) end.
    match goal with |- context [in_time G' (o_st ?q)] => set (Q' := q) end.
    assert (HQ : (lateQ Q \/ Q = Q')).
    { unfold Q, Q'. destruct (_ =? 1); apply outer_ok; intros; [apply nodes_ok|apply depth_ok]. }
    assert (Hon : s_on (o_st Q) = true).
    { unfold Q. assert (HL : forall step, (forall q k, s_on (o_st q) = true -> s_on (o_st (fst (step q k))) = true) -> forall ks q, s_on (o_st q) = true -> s_on (o_st (outer_loop step q ks)) = true).
      { intros step Hst. induction ks as [|k ks IH]; intros q Hq; cbn [outer_loop]; [exact Hq|].
        specialize (Hst q k Hq). destruct (step q k) as [q' ok]. cbn [fst] in Hst. destruct ok; [apply IH|]; exact Hst. }
      destruct (_ =? 1); (apply HL; [|reflexivity]); intros q k Hq.
      - unfold nodes_step. destruct (steady_time (o_st q)) as [F0 _]. destruct (in_time G (o_st q)) as [ok0 s1]. cbn [snd] in F0.
        destruct ok0; cbn [negb]; [|cbn [fst o_st]; congruence].
        destruct (sub_ok (S (Nat.min (p_depth P) k)) v [] (o_ub q) (Nat.min (p_depth P) k) k s1) as [[F1 _] _].
        destruct (solve_sub T G _ _ _ _ _ _ s1) as [sol s2]. cbn [snd] in F1.
        destruct (steady_time (set_mdf s2 (int_log2 (k + 1)))) as [F2 _]. destruct (in_time G (set_mdf s2 (int_log2 (k + 1)))) as [ok s3]. cbn [snd fst o_st set_mdf s_on] in *. congruence.
      - unfold depth_step.
        destruct (sub_ok (S k) v [] (o_ub q) k (Nat.min (p_nodes P) (2 ^ k - 1)) (o_st q)) as [[F1 _] _].
        destruct (solve_sub T G _ _ _ _ _ _ (o_st q)) as [sol s2]. cbn [snd] in F1.
        destruct (steady_time (set_mdf s2 k)) as [F2 _]. destruct (in_time G (set_mdf s2 k)) as [ok s3]. cbn [snd fst o_st set_mdf s_on] in *. congruence. }
    clearbody Q Q'.
    pose proof (steady_time (o_st Q)) as F. pose proof (time_agree (o_st Q)) as A.
    assert (Hp : fst (in_time G (o_st Q)) = negb (s_late (snd (in_time G (o_st Q))))).
    { unfold in_time. rewrite Hon. reflexivity. }
    destruct (in_time G (o_st Q)) as [proven s1]. cbn [fst snd] in *.
    assert (Hmain : forall x : bool, proven = true -> s_late s1 = false /\ Q = Q' /\ (proven, s1) = in_time G' (o_st Q)).
    { intros _ Hpr. rewrite Hpr in Hp. symmetry in Hp. apply negb_true_iff in Hp. split; [exact Hp|].
      destruct HQ as [HQ|HQ]; [apply F in HQ; congruence|]. split; [exact HQ|]. destruct A as [A|A]; [cbn [snd] in A; congruence|exact A]. }
    destruct (nd_sol (o_res Q) =? tk_worst T)%Z eqn:Ew.
    - cbn [a_proven a_sol a_tree]. intro Hpr. destruct (Hmain true Hpr) as (M1 & <- & M3). rewrite <- M3, Ew. auto.
    - match goal with |- context [construct T G ?a ?b ?c ?d ?e ?g s1] => set (X := construct T G a b c d e g s1) end.
      destruct X as [t s2] eqn:EX. cbn [a_proven a_sol a_tree]. intro Hpr. destruct (Hmain true Hpr) as (M1 & <- & M3). rewrite <- M3, Ew.
      match goal with |- context [construct T G' ?a ?b ?c ?d ?e ?g s1] => destruct (construct_ok a b c d e g s1 M1) as [_ C]; rewrite <- C end.
      unfold X in EX. rewrite EX. auto.
  Qed.
End Clock.

Lemma fit_clock T W P nf clk clk' v : (forall i, clk' i = true) -> fr_proven (fit T W P nf clk v) = true ->
  fit T W P nf clk v = fit T W P nf clk' v.
Proof.
  intros Hc. unfold fit. destruct (preprocess T (w_mls W) nf v) as [[fl red] v']. cbn [mk_result fr_proven]. intro Hp.
  pose proof (solve_clock T (mk_cfg W nf red clk) clk' Hc P v' (init_sol T) (init_state (mk_cfg W nf red clk) (w_branch W) (w_data W) (vsize v')) Hp) as (A1 & A2 & A3).
  unfold mk_result. rewrite A1, A2, Hp. cbn [mk_cfg c_ub c_lb c_tlb c_term c_sim c_mls c_nf c_redundant c_order] in *.
  change (init_state (mk_cfg W nf red clk') (w_branch W) (w_data W) (vsize v')) with (init_state (mk_cfg W nf red clk) (w_branch W) (w_data W) (vsize v')).
  rewrite <- A3 at 1. reflexivity.
Qed.

(** Without a limit the flag is set. *)
Lemma fit_no_limit T W P nf clk v : (forall i, clk i = true) -> fr_proven (fit T W P nf clk v) = true.
Proof.
  intro Hc. unfold fit. destruct (preprocess T (w_mls W) nf v) as [[fl red] v']. cbn [mk_result fr_proven].
  set (G := mk_cfg W nf red clk). assert (HcG : forall i, c_clk G i = true) by exact Hc.
  assert (HL : forall s, s_late s = false -> s_late (snd (in_time G s)) = false).
  { intros s Hs. unfold in_time. rewrite Hs, HcG. destruct (s_on s); [reflexivity|exact Hs]. }
  assert (HT : forall s, s_late s = false -> fst (in_time G s) = true).
  { intros s Hs. unfold in_time. rewrite Hs, HcG. destruct (s_on s); reflexivity. }
  unfold solve. destruct (first_ub T G P v' (init_sol T)) as [res ub].
  match goal with |- context [in_time G (o_st ?q)] => assert (HQ : s_late (o_st q) = false); [|set (Q := q) in *] end.
  { assert (HO : forall step, (forall q k, s_late (o_st q) = false -> s_late (o_st (fst (step q k))) = false) -> forall ks q, s_late (o_st q) = false -> s_late (o_st (outer_loop step q ks)) = false).
    { intros step Hst. induction ks as [|k ks IH]; intros q Hq; cbn [outer_loop]; [exact Hq|].
      specialize (Hst q k Hq). destruct (step q k) as [q' ok]. cbn [fst] in Hst. destruct ok; [apply IH|]; exact Hst. }
    destruct (_ =? 1); (apply HO; [|reflexivity]); intros q k Hq.
    - unfold nodes_step. pose proof (HL (o_st q) Hq) as F0. destruct (in_time G (o_st q)) as [ok0 s1]. cbn [snd] in F0.
      destruct ok0; cbn [negb]; [|exact F0].
      pose proof (late_sub T G HcG (S (Nat.min (p_depth P) k)) v' [] (o_ub q) (Nat.min (p_depth P) k) k s1 F0) as F1.
      destruct (solve_sub T G _ _ _ _ _ _ s1) as [sol s2]. cbn [snd] in F1.
      pose proof (HL (set_mdf s2 (int_log2 (k + 1))) F1) as F2. destruct (in_time G (set_mdf s2 (int_log2 (k + 1)))) as [ok s3]. exact F2.
    - unfold depth_step.
      pose proof (late_sub T G HcG (S k) v' [] (o_ub q) k (Nat.min (p_nodes P) (2 ^ k - 1)) (o_st q) Hq) as F1.
      destruct (solve_sub T G _ _ _ _ _ _ (o_st q)) as [sol s2]. cbn [snd] in F1.
      pose proof (HL (set_mdf s2 k) F1) as F2. destruct (in_time G (set_mdf s2 k)) as [ok s3]. exact F2. }
  pose proof (HT _ HQ) as HP. destruct (in_time G (o_st Q)) as [proven s1]. cbn [fst] in HP. subst proven.
  destruct (_ =? _)%Z; [reflexivity|]. destruct (construct T G _ _ _ _ _ _ _). reflexivity.
Qed.
