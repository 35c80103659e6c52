(** Lemmas about the listing of changed parameters. *)
From Coq Require Import List String Ascii ZArith QArith Bool Lia.
From Verif Require Import Model_Params Spec_Params Proofs_Params Model_ParamPrint Spec_ParamPrint.
Import ListNotations.
Local Open Scope string_scope.

Definition kind (v : pval) : ptype := match v with VS _ => TString | VI _ => TInteger | VB _ => TBoolean | VF _ => TFloat end.
Definition kinds (l : list (string * pval)) : list (string * ptype) := map (fun p => (fst p, kind (snd p))) l.
Lemma table : categories = map (fun p => (fst p, kinds (snd p))) defaults.
Proof. vm_compute. reflexivity. Qed.

Lemma default_now c n d : declared c n d -> current h_decl n d.
Proof.
  intros (ps & I & J). unfold defaults in I. cbn [In] in I.
  repeat (destruct I as [I|I]; [injection I as <- <-; cbn [In] in J;
    repeat (destruct J as [J|J]; [injection J as <- <-; vm_compute; reflexivity|]); destruct J|]).
  destruct I.
Qed.

Lemma same_flt f g : flt_same f g = true <-> same_value (VF f) (VF g).
Proof. destruct f, g; cbn; try (split; [discriminate|contradiction]); try tauto. apply Qeq_bool_iff. Qed.

Lemma shown_iff h n d x : current h_decl n d ->
  shown h_decl h n (kind d) = Some x <-> exists v, same_kind v d /\ current h n v /\ ~ same_value v d /\ x = shown_as v.
Proof.
  intros C. destruct d as [s|z|b|f]; cbn [kind shown]; cbn [current] in C.
  - unfold get_str in C. destruct (m_get n (h_str h_decl)) as [e0|]; [|discriminate]. injection C as <-. split.
    + destruct (m_get n (h_str h)) as [e|] eqn:G; [|discriminate]. destruct (String.eqb_spec (se_cur e) (se_cur e0)); [discriminate|].
      intros [= <-]. exists (VS (se_cur e)). cbn. unfold get_str. rewrite G. auto.
    + intros (v & K & V & N & ->). destruct v as [s|z|b|f]; try contradiction. cbn in V, N. unfold get_str in V.
      destruct (m_get n (h_str h)) as [e|]; [|discriminate]. injection V as ->.
      destruct (String.eqb_spec s (se_cur e0)); [contradiction|reflexivity].
  - unfold get_int in C. destruct (m_get n (h_int h_decl)) as [e0|]; [|discriminate]. injection C as <-. split.
    + destruct (m_get n (h_int h)) as [e|] eqn:G; [|discriminate]. destruct (Z.eqb_spec (ie_cur e) (ie_cur e0)); [discriminate|].
      intros [= <-]. exists (VI (ie_cur e)). cbn. unfold get_int. rewrite G. auto.
    + intros (v & K & V & N & ->). destruct v as [s|z|b|f]; try contradiction. cbn in V, N. unfold get_int in V.
      destruct (m_get n (h_int h)) as [e|]; [|discriminate]. injection V as ->.
      destruct (Z.eqb_spec z (ie_cur e0)); [contradiction|reflexivity].
  - unfold get_bool in C. destruct (m_get n (h_bool h_decl)) as [e0|]; [|discriminate]. injection C as <-. split.
    + destruct (m_get n (h_bool h)) as [e|] eqn:G; [|discriminate]. destruct (Bool.eqb e e0) eqn:Q; [discriminate|].
      intros [= <-]. exists (VB e). cbn. unfold get_bool. rewrite G. apply eqb_false_iff in Q. auto.
    + intros (v & K & V & N & ->). destruct v as [s|z|b'|f]; try contradiction. cbn in V, N. unfold get_bool in V.
      destruct (m_get n (h_bool h)) as [e|]; [|discriminate]. injection V as ->.
      apply eqb_false_iff in N. rewrite N. reflexivity.
  - unfold get_flt in C. destruct (m_get n (h_flt h_decl)) as [e0|]; [|discriminate]. injection C as <-. split.
    + destruct (m_get n (h_flt h)) as [e|] eqn:G; [|discriminate]. destruct (flt_same (fe_cur e) (fe_cur e0)) eqn:Q; [discriminate|].
      intros [= <-]. exists (VF (fe_cur e)). split; [exact I|]. split; [cbn; unfold get_flt; now rewrite G|].
      split; [|reflexivity]. rewrite <- same_flt, Q. discriminate.
    + intros (v & K & V & N & ->). destruct v as [s|z|b'|f]; try contradiction. cbn in V. unfold get_flt in V.
      destruct (m_get n (h_flt h)) as [e|]; [|discriminate]. injection V as ->. rewrite <- same_flt in N.
      destruct (flt_same f (fe_cur e0)); [contradiction|reflexivity].
Qed.

Lemma in_cat h0 h ps n x : In (LPar n x) (cat_lines h0 h ps) <-> exists t, In (n, t) ps /\ shown h0 h n t = Some x.
Proof.
  induction ps as [|[m t] ps IH]; cbn [cat_lines].
  - split; [intros []|intros (t & [] & _)].
  - split.
    + destruct (shown h0 h m t) as [v|] eqn:S.
      * intros [[= -> ->]|I]; [exists t; split; [now left|exact S]|]. apply IH in I. destruct I as (t' & I & E). exists t'. split; [now right|exact E].
      * intros I. apply IH in I. destruct I as (t' & I & E). exists t'. split; [now right|exact E].
    + intros (t' & [[= -> ->]|I] & E).
      * rewrite E. now left.
      * destruct (shown h0 h m t); [right|]; apply IH; eauto.
Qed.
Lemma cat_only h0 h ps l : In l (cat_lines h0 h ps) -> exists n x, l = LPar n x.
Proof.
  induction ps as [|[m t] ps IH]; cbn [cat_lines]; [intros []|].
  destruct (shown h0 h m t); [intros [<-|I]; eauto|exact IH].
Qed.
Lemma in_all h0 h cs n x : In (LPar n x) (all_lines h0 h cs) <-> exists c ps t, In (c, ps) cs /\ In (n, t) ps /\ shown h0 h n t = Some x.
Proof.
  induction cs as [|[c ps] cs IH]; cbn [all_lines].
  - split; [intros []|intros (c & ps & t & [] & _)].
  - rewrite in_app_iff, IH. split.
    + intros [I|(c' & ps' & t & I & J & E)]; [|exists c', ps', t; split; [now right|auto]].
      assert (I' : In (LPar n x) (cat_lines h0 h ps)).
      { destruct (cat_lines h0 h ps); [exact I|]. destruct I as [I|I]; [discriminate|exact I]. }
      apply in_cat in I'. destruct I' as (t & J & E). exists c, ps, t. split; [now left|auto].
    + intros (c' & ps' & t & [[= -> ->]|I] & J & E); [left|right; eauto 6].
      assert (I : In (LPar n x) (cat_lines h0 h ps')) by (apply in_cat; eauto).
      destruct (cat_lines h0 h ps'); [exact I|now right].
Qed.
Lemma in_header h0 h cs c : In (LCat c) (all_lines h0 h cs) <-> exists ps n t x, In (c, ps) cs /\ In (n, t) ps /\ shown h0 h n t = Some x.
Proof.
  induction cs as [|[c' ps] cs IH]; cbn [all_lines].
  - split; [intros []|intros (ps & n & t & x & [] & _)].
  - rewrite in_app_iff, IH. split.
    + intros [I|(ps' & n & t & x & I & J & E)]; [|exists ps', n, t, x; split; [now right|auto]].
      destruct (cat_lines h0 h ps) as [|l0 ls] eqn:L; [destruct I|].
      assert (I0 : In l0 (cat_lines h0 h ps)) by (rewrite L; now left).
      assert (K : c = c').
      { destruct I as [[= ->]|I]; [reflexivity|]. rewrite <- L in I. apply cat_only in I. destruct I as (?&?&?). discriminate. }
      subst c'. destruct (cat_only _ _ _ _ I0) as (n & x & ->). apply in_cat in I0. destruct I0 as (t & J & E).
      exists ps, n, t, x. split; [now left|auto].
    + intros (ps' & n & t & x & [[= -> ->]|I] & J & E); [left|right; eauto 8].
      assert (I : In (LPar n x) (cat_lines h0 h ps')) by (apply in_cat; eauto).
      destruct (cat_lines h0 h ps'); [destruct I|now left].
Qed.
Lemma under h0 h cs c ps n t x : In (c, ps) cs -> In (n, t) ps -> shown h0 h n t = Some x ->
  exists l1 ls l2, all_lines h0 h cs = (l1 ++ LCat c :: ls ++ l2)%list /\ In (LPar n x) ls /\ (forall l, In l ls -> exists m y, l = LPar m y).
Proof.
  induction cs as [|[c' ps'] cs IH]; intros I J E; [destruct I|]. cbn [all_lines]. destruct I as [[= -> ->]|I].
  - assert (K : In (LPar n x) (cat_lines h0 h ps)) by (apply in_cat; eauto).
    exists [], (cat_lines h0 h ps), (all_lines h0 h cs). split; [|split; [exact K|intros l; apply cat_only]].
    destruct (cat_lines h0 h ps); [destruct K|reflexivity].
  - destruct (IH I J E) as (l1 & ls & l2 & A & B & C).
    exists ((match cat_lines h0 h ps' with [] => [] | l => LCat c' :: l end) ++ l1)%list, ls, l2. split; [|auto].
    rewrite A, <- app_assoc. reflexivity.
Qed.

Definition par_names (l : list line) : list string := flat_map (fun x => match x with LPar n _ => [n] | _ => [] end) l.
Definition is_shown h0 h (p : string * ptype) : bool := match shown h0 h (fst p) (snd p) with Some _ => true | None => false end.
Lemma names_cat h0 h ps : par_names (cat_lines h0 h ps) = map fst (filter (is_shown h0 h) ps).
Proof.
  induction ps as [|[n t] ps IH]; cbn [cat_lines filter]; [reflexivity|]. unfold is_shown at 1. cbn [fst snd].
  destruct (shown h0 h n t); cbn; [f_equal|]; exact IH.
Qed.
Lemma names_app a b : par_names (a ++ b)%list = (par_names a ++ par_names b)%list.
Proof. unfold par_names. induction a; cbn; [reflexivity|]. rewrite IHa, app_assoc. reflexivity. Qed.
Lemma names_all h0 h cs : par_names (all_lines h0 h cs) = map fst (filter (is_shown h0 h) (flat_map snd cs)).
Proof.
  induction cs as [|[c ps] cs IH]; cbn [all_lines flat_map snd]; [reflexivity|].
  rewrite names_app, IH, filter_app, map_app. f_equal. rewrite <- names_cat. destruct (cat_lines h0 h ps); reflexivity.
Qed.
Lemma filter_names {A B} (f : A -> bool) (g : A -> B) (l : list A) : NoDup (map g l) -> NoDup (map g (filter f l)).
Proof.
  induction l as [|a l IH]; cbn; [auto|]. intros N. inversion N as [|? ? N1 N2]; subst. destruct (f a); cbn; [|auto].
  constructor; [|auto]. intros I. apply N1. apply in_map_iff in I. destruct I as (b & E & I). apply filter_In in I.
  apply in_map_iff. exists b. tauto.
Qed.
Lemma names_nodup : NoDup (map fst (flat_map snd categories)).
Proof.
  pose (f := fix go (l : list string) : bool := match l with [] => true | a :: l' => negb (mem a l') && go l' end).
  assert (F : forall l, f l = true -> NoDup l).
  { induction l as [|a l IH]; cbn; [constructor|]. intros E. apply andb_true_iff in E. destruct E as [E1 E2].
    constructor; [|auto]. intros I. apply mem_in in I. rewrite I in E1. discriminate. }
  apply F. vm_compute. reflexivity.
Qed.

Lemma in_print h0 h l : l = LDefault \/ l = LHead \/ l = LEnd \/ (In l (print_changed h0 h) <-> In l (all_lines h0 h categories)).
Proof.
  destruct l as [| |c|n v|]; auto; right; right; right; unfold print_changed.
  - destruct (all_lines h0 h categories) as [|a ls]; cbn; [intuition discriminate|]. rewrite in_app_iff. cbn. intuition discriminate.
  - destruct (all_lines h0 h categories) as [|a ls]; cbn; [intuition discriminate|]. rewrite in_app_iff. cbn. intuition discriminate.
Qed.
Lemma in_print_par h0 h n v : In (LPar n v) (print_changed h0 h) <-> In (LPar n v) (all_lines h0 h categories).
Proof. destruct (in_print h0 h (LPar n v)) as [E|[E|[E|E]]]; try discriminate; exact E. Qed.
Lemma in_print_cat h0 h c : In (LCat c) (print_changed h0 h) <-> In (LCat c) (all_lines h0 h categories).
Proof. destruct (in_print h0 h (LCat c)) as [E|[E|[E|E]]]; try discriminate; exact E. Qed.

Lemma table_in c n t : (exists ps, In (c, ps) categories /\ In (n, t) ps) <-> exists d, declared c n d /\ t = kind d.
Proof.
  rewrite table. split.
  - intros (ps & I & J). apply in_map_iff in I. destruct I as ((c' & ds) & [= <- <-] & I). unfold kinds in J.
    apply in_map_iff in J. destruct J as ((n' & d) & [= <- <-] & J). exists d. split; [|reflexivity]. exists ds. auto.
  - intros (d & (ds & I & J) & ->). exists (kinds ds). split.
    + apply in_map_iff. exists (c, ds). auto.
    + unfold kinds. apply in_map_iff. exists (n, d). auto.
Qed.
Lemma changed_iff h c n x : changed h c n x <-> exists ps t, In (c, ps) categories /\ In (n, t) ps /\ shown h_decl h n t = Some x.
Proof.
  split.
  - intros (d & v & D & K & C & N & E). destruct (proj2 (table_in c n (kind d))) as (ps & I & J); [eauto|].
    exists ps, (kind d). refine (conj I (conj J _)). apply (shown_iff h n d x (default_now _ _ _ D)). eauto.
  - intros (ps & t & I & J & S). destruct (proj1 (table_in c n t)) as (d & D & ->); [eauto|].
    apply (shown_iff h n d x (default_now _ _ _ D)) in S. destruct S as (v & K & C & N & E). exists d, v. auto.
Qed.
