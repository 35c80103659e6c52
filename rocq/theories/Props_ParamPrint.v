(** C105: the listing of changed parameters printed at the start. *)
From Coq Require Import List String Ascii ZArith QArith Bool Lia DecimalString DecimalZ.
From Verif Require Import Model_Params Spec_Params Proofs_Params Props_Params Model_ParamPrint Spec_ParamPrint Proofs_ParamPrint.
Import ListNotations.
Local Open Scope string_scope.

(** The listing shows exactly the parameters whose value differs from the default, with their value. *)
Theorem C105_listed R h0 cs h n x : define_parameters = Ok h0 -> prun R h0 cs = Ok h ->
  In (LPar n x) (print_changed h0 h) <-> exists c, changed h c n x.
Proof.
  rewrite define_decl. intros [= <-] _. rewrite in_print_par, in_all. split.
  - intros (c & ps & t & H). exists c. apply changed_iff. eauto.
  - intros (c & H). apply changed_iff in H. destruct H as (ps & t & H). eauto.
Qed.
Print Assumptions C105_listed.

(** A parameter that is not shown has its default value. *)
Theorem C105_not_listed R h0 cs h c n d : define_parameters = Ok h0 -> prun R h0 cs = Ok h -> declared c n d ->
  (forall x, ~ In (LPar n x) (print_changed h0 h)) -> exists v, current h n v /\ same_value v d.
Proof.
  intros D H K N. pose proof (decl_run R cs h0 h D H) as DH.
  assert (V : exists v, same_kind v d /\ current h n v).
  { pose proof (default_now _ _ _ K) as C. destruct DH as ((SI&SF&SS&SB)&_).
    destruct d as [s|z|b|f]; cbn in C.
    - unfold get_str in C. destruct (m_get n (h_str h_decl)) as [e|] eqn:G; [|discriminate].
      destruct (shape_get s_shape n _ _ (s_shape e) SS) as (a & A & _); [now rewrite get_shape, G|].
      exists (VS (se_cur a)). cbn. unfold get_str. rewrite A. auto.
    - unfold get_int in C. destruct (m_get n (h_int h_decl)) as [e|] eqn:G; [|discriminate].
      destruct (shape_get i_shape n _ _ (i_shape e) SI) as (a & A & _); [now rewrite get_shape, G|].
      exists (VI (ie_cur a)). cbn. unfold get_int. rewrite A. auto.
    - unfold get_bool in C. destruct (m_get n (h_bool h_decl)) as [e|] eqn:G; [|discriminate].
      destruct (shape_get b_shape n _ _ (b_shape e) SB) as (a & A & _); [now rewrite get_shape, G|].
      exists (VB a). cbn. unfold get_bool. rewrite A. auto.
    - unfold get_flt in C. destruct (m_get n (h_flt h_decl)) as [e|] eqn:G; [|discriminate].
      destruct (shape_get f_shape n _ _ (f_shape e) SF) as (a & A & _); [now rewrite get_shape, G|].
      exists (VF (fe_cur a)). cbn. unfold get_flt. rewrite A. auto. }
  destruct V as (v & S & V). exists v. split; [exact V|].
  assert (T : same_value v d \/ ~ same_value v d).
  { destruct v as [s|z|b|f], d as [s'|z'|b'|f']; cbn; auto.
    - destruct (string_dec s s'); auto.
    - destruct (Z.eq_dec z z'); auto.
    - destruct (bool_dec b b'); auto.
    - destruct f, f'; cbn; auto. destruct (Qeq_dec q q0); auto. }
  destruct T as [T|T]; [exact T|]. exfalso. apply (N (shown_as v)). apply (C105_listed R h0 cs h n _ D H). exists c, d, v. auto.
Qed.
Print Assumptions C105_not_listed.

(** Each parameter is shown at most once, in the order of the declarations. *)
Theorem C105_once R h0 cs h : define_parameters = Ok h0 -> prun R h0 cs = Ok h ->
  NoDup (par_names (print_changed h0 h))
  /\ exists f, par_names (print_changed h0 h) = map fst (filter f (flat_map snd defaults)).
Proof.
  intros D H.
  assert (E : par_names (print_changed h0 h) = par_names (all_lines h0 h categories)).
  { unfold print_changed. destruct (all_lines h0 h categories) as [|a l] eqn:A; [reflexivity|].
    change (par_names (LHead :: (a :: l) ++ [LEnd])%list) with (par_names ((a :: l) ++ [LEnd])%list).
    rewrite names_app. apply app_nil_r. }
  rewrite E, names_all. split; [apply filter_names, names_nodup|].
  exists (fun p => is_shown h0 h (fst p, kind (snd p))).
  assert (T : flat_map snd categories = kinds (flat_map snd defaults)) by (vm_compute; reflexivity).
  rewrite T. clear T. unfold kinds. induction (flat_map snd defaults) as [|p l IH]; [reflexivity|]. cbn [map filter fst snd].
  destruct (is_shown h0 h (fst p, kind (snd p))); cbn [map fst]; [f_equal|]; exact IH.
Qed.
Print Assumptions C105_once.

(** It is shown under the name of its category, and a category is named only when one of its
    parameters is shown. *)
Theorem C105_category R h0 cs h c : define_parameters = Ok h0 -> prun R h0 cs = Ok h ->
  (forall n x, changed h c n x -> exists l1 ls l2, print_changed h0 h = (l1 ++ LCat c :: ls ++ l2)%list
    /\ In (LPar n x) ls /\ (forall l, In l ls -> exists m y, l = LPar m y))
  /\ (In (LCat c) (print_changed h0 h) -> exists n x, changed h c n x).
Proof.
  rewrite define_decl. intros [= <-] _. split.
  - intros n x K. apply changed_iff in K. destruct K as (ps & t & I & J & S).
    destruct (under _ _ _ _ _ _ _ _ I J S) as (l1 & ls & l2 & A & B & C).
    unfold print_changed. destruct (all_lines h_decl h categories) as [|a l] eqn:L.
    { symmetry in A. apply app_eq_nil in A. destruct A. discriminate. }
    exists (LHead :: l1), ls, (l2 ++ [LEnd])%list. split; [|auto]. rewrite A. cbn [app]. f_equal.
    rewrite <- app_assoc. cbn [app]. rewrite <- app_assoc. reflexivity.
  - rewrite in_print_cat, in_header. intros (ps & n & t & x & K). exists n, x. apply changed_iff. eauto.
Qed.
Print Assumptions C105_category.

(** "Using default parameters" alone is printed when and only when nothing differs. *)
Theorem C105_default R h0 cs h : define_parameters = Ok h0 -> prun R h0 cs = Ok h ->
  (print_changed h0 h = [LDefault] <-> forall c n x, ~ changed h c n x)
  /\ (In LDefault (print_changed h0 h) -> print_changed h0 h = [LDefault])
  /\ (print_changed h0 h <> [LDefault] -> exists l, print_changed h0 h = (LHead :: l ++ [LEnd])%list).
Proof.
  rewrite define_decl. intros [= <-] _.
  assert (NP : forall l cs', In l (all_lines h_decl h cs') -> l <> LDefault).
  { intros l cs'. induction cs' as [|[c ps] cs' IH]; cbn [all_lines]; [intros []|]. rewrite in_app_iff. intros [I|I]; [|auto].
    intros ->. destruct (cat_lines h_decl h ps) as [|a ls] eqn:L; [destruct I|]. destruct I as [I|I]; [discriminate|].
    rewrite <- L in I. apply cat_only in I. destruct I as (?&?&?). discriminate. }
  specialize (NP LDefault categories).
  split; [|unfold print_changed; split].
  - split.
    + intros E c n x K. apply changed_iff in K. destruct K as (ps & t & K).
      assert (I : In (LPar n x) (print_changed h_decl h)) by (rewrite in_print_par, in_all; eauto).
      rewrite E in I. destruct I as [I|[]]. discriminate.
    + intros N. unfold print_changed. destruct (all_lines h_decl h categories) as [|a l] eqn:L; [reflexivity|]. exfalso.
      assert (I : In a (all_lines h_decl h categories)) by (rewrite L; now left).
      assert (Q : exists c n x, changed h c n x).
      { clear N NP L. revert I. 
        assert (G : forall cs', In a (all_lines h_decl h cs') -> exists c ps n t x, In (c, ps) cs' /\ In (n, t) ps /\ shown h_decl h n t = Some x).
        { induction cs' as [|[c ps] cs' IH]; cbn [all_lines]; [intros []|]. rewrite in_app_iff. intros [I|I].
          - destruct (cat_lines h_decl h ps) as [|b ls] eqn:L; [destruct I|].
            assert (I0 : In b (cat_lines h_decl h ps)) by (rewrite L; now left).
            destruct (cat_only _ _ _ _ I0) as (n & x & ->). apply in_cat in I0. destruct I0 as (t & J & E).
            exists c, ps, n, t, x. split; [now left|auto].
          - destruct (IH I) as (c' & ps' & n & t & x & A & B). exists c', ps', n, t, x. split; [now right|auto]. }
        intros I. destruct (G _ I) as (c & ps & n & t & x & K). exists c, n, x. apply changed_iff. eauto. }
      destruct Q as (c & n & x & Q). exact (N c n x Q).
  - destruct (all_lines h_decl h categories) as [|a l]; [reflexivity|]. intros [I|I]; [discriminate|].
    apply in_app_iff in I. destruct I as [I|[I|[]]]; [|discriminate]. destruct (NP I eq_refl).
  - destruct (all_lines h_decl h categories) as [|a l]; [congruence|]. intros _. eauto.
Qed.
Print Assumptions C105_default.

(** On the command line: what the program prints is the listing for the values it will use, and a
    parameter that is not named in the arguments is not shown. *)
Theorem C105_command_line R args ls : start_up R args = Ok ls ->
  exists h0 h, define_parameters = Ok h0 /\ prun R h0 [PArgs args] = Ok h
  /\ (get_bool h "verbose" = Ok true /\ ls = print_changed h0 h \/ get_bool h "verbose" = Ok false /\ ls = [])
  /\ (forall n x, In (LPar n x) ls -> In (String "-" n) args).
Proof.
  unfold start_up. rewrite define_decl. cbn [bind]. destruct args as [|a rest]; [discriminate|].
  set (args := a :: rest). intros H. apply bind_ok in H. destruct H as (h & P & H). apply bind_ok in H. destruct H as (v & V & H).
  injection H as <-. exists h_decl, h. split; [reflexivity|].
  assert (PR : prun R h_decl [PArgs args] = Ok h) by (cbn [prun pstep]; rewrite P; reflexivity).
  split; [exact PR|]. split.
  { destruct v; [left|right]; auto. }
  intros n x I. destruct v; [|destruct I]. apply (C105_listed R h_decl _ h n x define_decl PR) in I.
  destruct I as (c & d & w & D & K & C & N & E).
  destruct (in_dec string_dec (String "-" n) args) as [Y|Y]; [exact Y|]. exfalso. apply N.
  assert (F : forall s, (s = SStr n \/ s = SInt n \/ s = SBool n \/ s = SFlt n) -> same_slot s h_decl h).
  { intros s S. apply (C29_others_unchanged R h_decl (PArgs args) h s); [exact P|]. intros (m & I & W). apply Y.
    assert (m = n) by (destruct S as [->|[->|[->| ->]]]; destruct W as [W|[W|[W|W]]]; congruence). now subst. }
  pose proof (default_now _ _ _ D) as C0.
  destruct w as [s|z|b|f], d as [s'|z'|b'|f']; try contradiction; cbn in C, C0 |- *.
  - specialize (F (SStr n)). cbn in F. rewrite F in C by auto. congruence.
  - specialize (F (SInt n)). cbn in F. rewrite F in C by auto. congruence.
  - specialize (F (SBool n)). cbn in F. rewrite F in C by auto. congruence.
  - specialize (F (SFlt n)). cbn in F. rewrite F in C by auto. assert (f = f') by congruence. subst f'.
    destruct f; auto; [|reflexivity].
    exfalso. clear - D. destruct D as (ps & I & J). unfold defaults in I. cbn [In] in I.
    repeat (destruct I as [I|I]; [injection I as <- <-; cbn [In] in J; repeat (destruct J as [J|J]; [discriminate|]); destruct J|]). destruct I.
Qed.
Print Assumptions C105_command_line.

Lemma cat_same h ps : (forall n ty, n <> "cost-complexity" -> shown h_decl h n ty = shown h_decl h_decl n ty) ->
  forallb (fun p => negb (fst p =? "cost-complexity")) ps = true -> cat_lines h_decl h ps = cat_lines h_decl h_decl ps.
Proof.
  intros L. induction ps as [|[n t] ps IH]; [reflexivity|]. cbn [forallb cat_lines fst]. intros F. apply andb_true_iff in F.
  destruct F as [F1 F2]. rewrite (IH F2), L; [reflexivity|]. intros ->. discriminate F1.
Qed.
Lemma one_changed h x : shown h_decl h "cost-complexity" TFloat = Some x ->
  (forall n ty, n <> "cost-complexity" -> shown h_decl h n ty = shown h_decl h_decl n ty) ->
  print_changed h_decl h = [LHead; LCat "Objective Parameters"; LPar "cost-complexity" x; LEnd].
Proof.
  intros C L. unfold print_changed.
  assert (A : all_lines h_decl h categories = [LCat "Objective Parameters"; LPar "cost-complexity" x]).
  { unfold categories. cbn [all_lines].
    rewrite (cat_same h [("task", TString); ("hyper-tune", TBoolean); ("file", TString); ("test-file", TString); ("time", TFloat);
      ("max-depth", TInteger); ("max-num-nodes", TInteger); ("max-num-features", TInteger); ("num-instances", TInteger);
      ("num-extra-cols", TInteger); ("verbose", TBoolean); ("all-trees", TBoolean); ("train-test-split", TFloat);
      ("stratify", TBoolean); ("min-leaf-node-size", TInteger)] L eq_refl).
    rewrite (cat_same h [("use-terminal-solver", TBoolean); ("use-similarity-lower-bound", TBoolean); ("use-upper-bound", TBoolean);
      ("use-lower-bound", TBoolean); ("use-task-lower-bound", TBoolean); ("upper-bound", TFloat); ("feature-ordering", TString);
      ("random-seed", TInteger); ("use-branch-caching", TBoolean); ("use-dataset-caching", TBoolean); ("duplicate-factor", TInteger)] L eq_refl).
    rewrite (cat_same h [("cost-file", TString); ("ppg-teacher-method", TString); ("discrimination-limit", TFloat); ("regression-bound", TString)] L eq_refl).
    assert (E : cat_lines h_decl h [("cost-complexity", TFloat); ("lasso-penalty", TFloat); ("ridge-penalty", TFloat)]
      = LPar "cost-complexity" x :: cat_lines h_decl h_decl [("lasso-penalty", TFloat); ("ridge-penalty", TFloat)]).
    { rewrite <- (cat_same h [("lasso-penalty", TFloat); ("ridge-penalty", TFloat)] L eq_refl).
      change (match shown h_decl h "cost-complexity" TFloat with
        | Some v => LPar "cost-complexity" v :: cat_lines h_decl h [("lasso-penalty", TFloat); ("ridge-penalty", TFloat)]
        | None => cat_lines h_decl h [("lasso-penalty", TFloat); ("ridge-penalty", TFloat)] end
        = LPar "cost-complexity" x :: cat_lines h_decl h [("lasso-penalty", TFloat); ("ridge-penalty", TFloat)]).
      rewrite C. reflexivity. }
    rewrite E. vm_compute. reflexivity. }
  rewrite A. reflexivity.
Qed.

(** The text of a value does not settle the value: a small positive cost of a node is shown as
    0.000000, the text of the default. *)
Theorem C105_digits_refuted R t p d : rd_flt R t = Some (FNum (Zpos p # d)) -> (2000000 * Zpos p < Zpos d)%Z ->
  start_up R ["-cost-complexity"; t] = Ok [LHead; LCat "Objective Parameters"; LPar "cost-complexity" "0.000000"; LEnd]
  /\ shown_as (VF (FNum 0)) = "0.000000".
Proof.
  intros RD S. split; [|vm_compute; reflexivity]. unfold start_up. rewrite define_decl. cbn [bind].
  assert (M : micros (Z.abs (Zpos p)) (Zpos d) = 0%Z).
  { unfold micros. cbn [Z.abs]. rewrite (Z.div_small (Zpos p * 1000000)), (Z.mod_small (Zpos p * 1000000)) by lia.
    destruct (Z.ltb_spec (2 * (Zpos p * 1000000)) (Zpos d)); [reflexivity|lia]. }
  assert (CK : check_flt (FEntry (fz 0) (fz 0) (fz 1)) (FNum (Zpos p # d)) = true).
  { unfold check_flt. cbn. unfold Qle_bool; cbn. destruct (Z.leb_spec (Zpos (p * 1)) (Zpos d)); [reflexivity|lia]. }
  assert (P : parse_args R h_decl ["-cost-complexity"; t] =
    Ok (Handler (h_cats h_decl) (h_str h_decl) (h_int h_decl) (h_bool h_decl) (m_put "cost-complexity" (FEntry (FNum (Zpos p # d)) (fz 0) (fz 1)) (h_flt h_decl)))).
  { cbn [parse_args].
    replace (known "cost-complexity" (h_str h_decl)) with false by (vm_compute; reflexivity).
    replace (known "cost-complexity" (h_int h_decl)) with false by (vm_compute; reflexivity).
    replace (known "cost-complexity" (h_bool h_decl)) with false by (vm_compute; reflexivity).
    replace (known "cost-complexity" (h_flt h_decl)) with true by (vm_compute; reflexivity).
    cbn [orb]. rewrite RD. cbn [stored bind]. unfold set_flt.
    replace (m_get "cost-complexity" (h_flt h_decl)) with (Some (FEntry (fz 0) (fz 0) (fz 1))) by (vm_compute; reflexivity).
    cbn [fe_min fe_max]. rewrite CK. reflexivity. }
  rewrite P. cbn [bind]. 
  set (h := Handler _ _ _ _ _).
  replace (get_bool h "verbose") with (@Ok bool true) by (vm_compute; reflexivity). cbn [bind]. f_equal.
  assert (FS : fstr (FNum (Zpos p # d)) = "0.000000") by (unfold fstr; cbn [Qnum Qden]; rewrite M; vm_compute; reflexivity).
  assert (CC : shown h_decl h "cost-complexity" TFloat = Some "0.000000").
  { cbn [shown]. unfold h; cbn [h_flt]. rewrite get_put_same.
    replace (m_get "cost-complexity" (h_flt h_decl)) with (Some (FEntry (fz 0) (fz 0) (fz 1))) by (vm_compute; reflexivity).
    cbn [fe_cur]. rewrite FS. cbn [flt_same fz]. unfold Qeq_bool. cbn. reflexivity. }
  assert (O : forall n, n <> "cost-complexity" -> shown h_decl h n TFloat = shown h_decl h_decl n TFloat).
  { intros n N. cbn [shown]. unfold h; cbn [h_flt]. rewrite get_put_other by congruence. reflexivity. }
  assert (L : forall n ty, n <> "cost-complexity" -> shown h_decl h n ty = shown h_decl h_decl n ty).
  { intros n ty N. destruct ty; try reflexivity. exact (O n N). }
  exact (one_changed h "0.000000" CC L).
Qed.
Print Assumptions C105_digits_refuted.

(** The text of an integer reads back as that integer, and a fraction is rounded to the nearest
    multiple of one millionth. *)
Theorem C105_texts : (forall z, option_map Z.of_int (NilZero.int_of_string (zstr z)) = Some z)
  /\ (forall n d, (0 <= n)%Z -> (0 < d)%Z -> (2 * Z.abs (micros n d * d - n * 1000000) <= d)%Z).
Proof.
  split.
  - intros z. unfold zstr. rewrite NilZero.isi; [cbn; now rewrite of_to| |].
    + intros E. assert (F : Z.of_int (Z.to_int z) = 0%Z) by (rewrite E; reflexivity). rewrite of_to in F. subst. discriminate.
    + intros E. assert (F : Z.of_int (Z.to_int z) = 0%Z) by (rewrite E; reflexivity). rewrite of_to in F. subst. discriminate.
  - intros n d Hn Hd. unfold micros. pose proof (Z.div_mod (n * 1000000) d ltac:(lia)) as E.
    pose proof (Z.mod_pos_bound (n * 1000000) d Hd) as B. cbv zeta.
    set (q := ((n * 1000000) / d)%Z) in *. set (r := ((n * 1000000) mod d)%Z) in *.
    destruct (Z.ltb_spec (2 * r) d); [rewrite E; nia|]. destruct (Z.ltb_spec d (2 * r)); [rewrite E; nia|].
    destruct (Z.even q); rewrite E; nia.
Qed.
Print Assumptions C105_texts.

(** Cases. *)
Definition rd_small : reader := Reader (fun s => if s =? "4" then Some 4%Z else Some 0%Z) (fun s => Some (s =? "1"))
  (fun s => Some (FNum (if s =? "1e-7" then 1 # 10000000 else 1 # 4))).
Example C105_ex : start_up rd_small ["-max-depth"; "4"; "-stratify"; "0"; "-task"; "f1-score"; "-time"; "0.25"; "-verbose"; "1"]
  = Ok [LHead; LCat "Main Parameters"; LPar "task" "f1-score"; LPar "time" "0.250000"; LPar "max-depth" "4"; LPar "stratify" "0"; LEnd].
Proof. vm_compute. reflexivity. Qed.
Example C105_ex_default : start_up rd_small ["-task"; "accuracy"] = Ok [LDefault] /\ start_up rd_small ["-verbose"; "0"] = Ok [].
Proof. vm_compute. auto. Qed.
Example C105_ex_small : start_up rd_small ["-cost-complexity"; "1e-7"] = Ok [LHead; LCat "Objective Parameters"; LPar "cost-complexity" "0.000000"; LEnd].
Proof. apply (C105_digits_refuted rd_small "1e-7" 1 10000000); [reflexivity|lia]. Qed.
Example C105_ex_text : map text [LPar "max-depth" "4"; LCat "Main Parameters"] = [String "009" "-max-depth = 4"; "Main Parameters"].
Proof. reflexivity. Qed.
Example C105_ex_round : map fstr [FNum (1 # 3); FNum (-2 # 3); FNum (5 # 10000000); FNum (15 # 10000000); FNum 3600]
  = ["0.333333"; "-0.666667"; "0.000000"; "0.000002"; "3600.000000"].
Proof. vm_compute. reflexivity. Qed.
