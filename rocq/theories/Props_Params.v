(** C29, C30, C57: the parameters. *)
From Coq Require Import List String Ascii ZArith QArith Bool Lia Lqa.
From Verif Require Import Model_Params Spec_Params Proofs_Params.
Import ListNotations.
Local Open Scope string_scope.

(** * C29: values read back are always declared values. *)
Theorem C29_ranges R h0 cs h : define_parameters = Ok h0 -> prun R h0 cs = Ok h -> well_set h.
Proof. intros D H. apply well_of. exact (decl_run R cs h0 h D H). Qed.

(** The declared defaults can be read, and calls with good values are accepted. *)
Theorem C29_accepts R h0 cs h : define_parameters = Ok h0 -> prun R h0 cs = Ok h ->
  (forall n lo hi v, In (n, (lo, hi)) int_ranges -> (lo <= v <= hi)%Z -> exists h', set_int h n v = Ok h' /\ get_int h' n = Ok v)
  /\ (forall n lo hi v, In (n, (lo, hi)) flt_ranges -> in_range lo hi v -> exists h', set_flt h n v = Ok h' /\ get_flt h' n = Ok v)
  /\ (forall n vs opt v, In (n, (vs, opt)) str_values -> vs = [] \/ In v vs \/ (opt = true /\ v = "") ->
        exists h', set_str h n v = Ok h' /\ get_str h' n = Ok v)
  /\ (forall n v, In n bool_names -> exists h', set_bool h n v = Ok h' /\ get_bool h' n = Ok v).
Proof.
  intros D H. pose proof (decl_run R cs h0 h D H) as DH.
  unfold set_int, set_flt, set_str, set_bool, get_int, get_flt, get_str, get_bool. refine (conj _ (conj _ (conj _ _))).
  - intros n lo hi v I L. destruct (decl_int h n lo hi DH I) as (e & G & E1 & E2 & O). rewrite G.
    assert (K : check_int e v = true).
    { unfold check_int. apply negb_true_iff, orb_false_iff. rewrite E1, E2. split; apply Z.ltb_ge; lia. }
    rewrite K. eexists. split; [reflexivity|]. cbn. rewrite get_put_same. reflexivity.
  - intros n lo hi v I (q & -> & L1 & L2). destruct (decl_flt h n lo hi DH I) as (e & G & E1 & E2 & O). rewrite G.
    assert (K : check_flt e (FNum q) = true).
    { unfold check_flt. apply negb_true_iff, orb_false_iff. rewrite E1, E2. cbn. split; apply negb_false_iff, Qle_bool_iff; assumption. }
    rewrite K. eexists. split; [reflexivity|]. cbn. rewrite get_put_same. reflexivity.
  - intros n vs opt v I L. destruct (decl_str h n vs opt DH I) as (e & G & E1 & E2 & O). rewrite G.
    assert (K : check_str e v = true).
    { unfold check_str. rewrite E1, E2. destruct L as [->|[L|[-> ->]]]; [now destruct (opt && (v =? ""))| |reflexivity].
      destruct (opt && (v =? "")); [reflexivity|]. destruct vs; [reflexivity|]. apply mem_in. exact L. }
    rewrite K. eexists. split; [reflexivity|]. cbn. rewrite get_put_same. reflexivity.
  - intros n v I. destruct (decl_bool h n DH I) as (e & G). rewrite G. eexists. split; [reflexivity|]. cbn. rewrite get_put_same. reflexivity.
Qed.

(** Values outside the declared range never get in: the call ends the process. *)
Theorem C29_rejects R h0 cs h : define_parameters = Ok h0 -> prun R h0 cs = Ok h ->
  (forall n lo hi v, In (n, (lo, hi)) int_ranges -> (v < lo \/ hi < v)%Z -> set_int h n v = Exit)
  /\ (forall n lo hi v, In (n, (lo, hi)) flt_ranges -> v <> FNan -> ~ in_range lo hi v -> set_flt h n v = Exit)
  /\ (forall n vs opt v, In (n, (vs, opt)) str_values -> vs <> [] -> ~ In v vs -> opt = false \/ v <> "" -> set_str h n v = Exit).
Proof.
  intros D H. pose proof (decl_run R cs h0 h D H) as DH. unfold set_int, set_flt, set_str. refine (conj _ (conj _ _)).
  - intros n lo hi v I L. destruct (decl_int h n lo hi DH I) as (e & G & E1 & E2 & O). rewrite G.
    assert (K : check_int e v = false).
    { unfold check_int. apply negb_false_iff, orb_true_iff. rewrite E1, E2, !Z.ltb_lt. lia. }
    rewrite K. reflexivity.
  - intros n lo hi v I N L. destruct (decl_flt h n lo hi DH I) as (e & G & E1 & E2 & O). rewrite G.
    destruct (check_flt e v) eqn:K; [|reflexivity]. exfalso. apply L. unfold check_flt in K.
    apply negb_true_iff, orb_false_iff in K. destruct K as [K1 K2]. rewrite E1 in K1. rewrite E2 in K2.
    destruct (range_of lo hi v K1 K2); [contradiction|assumption].
  - intros n vs opt v I N1 N2 N3. destruct (decl_str h n vs opt DH I) as (e & G & E1 & E2 & O). rewrite G.
    assert (K : check_str e v = false).
    { unfold check_str. rewrite E1, E2. assert (X : opt && (v =? "") = false).
      { destruct N3 as [->|N3]; [reflexivity|]. apply andb_false_iff. right. apply String.eqb_neq. exact N3. }
      rewrite X. destruct vs; [contradiction|]. destruct (mem v (s :: vs)) eqn:M; [|reflexivity]. apply mem_in in M. contradiction. }
    rewrite K. reflexivity.
Qed.

(** A name that is not declared is rejected by every way of setting or reading it. *)
Theorem C29_unknown R h0 cs h n : define_parameters = Ok h0 -> prun R h0 cs = Ok h -> unknown_name n ->
  (forall v, set_int h n v = Exit) /\ (forall v, set_flt h n v = Exit) /\ (forall v, set_str h n v = Exit) /\ (forall v, set_bool h n v = Exit)
  /\ get_int h n = Exit /\ get_flt h n = Exit /\ get_str h n = Exit /\ get_bool h n = Exit
  /\ (forall rest, parse_args R h (String "-" n :: rest) = Exit).
Proof.
  intros D H U. pose proof (decl_run R cs h0 h D H) as DH. destruct (unknown_none h n DH U) as (A&B&C&E).
  unfold set_int, set_flt, set_str, set_bool, get_int, get_flt, get_str, get_bool. rewrite A, B, C, E.
  repeat split; auto. intros rest. cbn [parse_args]. unfold known. rewrite A, B, C, E. reflexivity.
Qed.

(** A call changes nothing but the parameter it names. *)
Definition writes (c : pcall) (s : slot) : Prop :=
  match c with
  | PStr n _ => s = SStr n | PInt n _ => s = SInt n | PBool n _ => s = SBool n | PFlt n _ => s = SFlt n
  | PArgs args => exists n, In (String "-" n) args /\ (s = SStr n \/ s = SInt n \/ s = SBool n \/ s = SFlt n)
  end.

Lemma set_str_frame h n v h' s : set_str h n v = Ok h' -> s <> SStr n -> same_slot s h h'.
Proof.
  unfold set_str. destruct (m_get n (h_str h)) as [e|]; [|discriminate]. destruct (check_str e v); [|discriminate].
  intros [= <-] N. destruct s; cbn; try reflexivity. unfold get_str; cbn. rewrite get_put_other; [reflexivity|congruence].
Qed.
Lemma set_int_frame h n v h' s : set_int h n v = Ok h' -> s <> SInt n -> same_slot s h h'.
Proof.
  unfold set_int. destruct (m_get n (h_int h)) as [e|]; [|discriminate]. destruct (check_int e v); [|discriminate].
  intros [= <-] N. destruct s; cbn; try reflexivity. unfold get_int; cbn. rewrite get_put_other; [reflexivity|congruence].
Qed.
Lemma set_flt_frame h n v h' s : set_flt h n v = Ok h' -> s <> SFlt n -> same_slot s h h'.
Proof.
  unfold set_flt. destruct (m_get n (h_flt h)) as [e|]; [|discriminate]. destruct (check_flt e v); [|discriminate].
  intros [= <-] N. destruct s; cbn; try reflexivity. unfold get_flt; cbn. rewrite get_put_other; [reflexivity|congruence].
Qed.
Lemma set_bool_frame h n v h' s : set_bool h n v = Ok h' -> s <> SBool n -> same_slot s h h'.
Proof.
  unfold set_bool. destruct (m_get n (h_bool h)) as [e|]; [|discriminate].
  intros [= <-] N. destruct s; cbn; try reflexivity. unfold get_bool; cbn. rewrite get_put_other; [reflexivity|congruence].
Qed.
Lemma same_slot_trans s h1 h2 h3 : same_slot s h1 h2 -> same_slot s h2 h3 -> same_slot s h1 h3.
Proof. destruct s; cbn; congruence. Qed.
Lemma same_slot_refl s h : same_slot s h h.
Proof. destruct s; reflexivity. Qed.

Lemma parse_frame R s : forall k args, (List.length args <= k)%nat -> forall h h', parse_args R h args = Ok h' -> ~ writes (PArgs args) s -> same_slot s h h'.
Proof.
  induction k as [|k IH]; intros [|a rest] L h h' H N; try (cbn in L; lia).
  - cbn in H. injection H as <-. apply same_slot_refl.
  - cbn in H. injection H as <-. apply same_slot_refl.
  - cbn [parse_args] in H. destruct a as [|c n]; [discriminate|].
    destruct (ascii_dec c "-") as [->|NE].
    2:{ exfalso. destruct c as [[] [] [] [] [] [] [] []]; try discriminate H. apply NE. reflexivity. }
    destruct (known n (h_str h) || known n (h_int h) || known n (h_bool h) || known n (h_flt h)); [|discriminate].
    destruct rest as [|v rest]; [discriminate|]. cbn in L.
    apply bind_ok in H. destruct H as (h1 & H1 & H2).
    assert (N1 : s <> SStr n /\ s <> SInt n /\ s <> SBool n /\ s <> SFlt n).
    { refine (conj _ (conj _ (conj _ _))); intros ->; apply N; exists n; (split; [now left|auto]). }
    destruct N1 as (Ns&Ni&Nb&Nf).
    apply (IH rest) in H2; [|lia|].
    2:{ intros (m & I & E). apply N. exists m. split; [right; right; exact I|exact E]. }
    apply (same_slot_trans s h h1 h'); [|exact H2].
    destruct (known n (h_str h)); [exact (set_str_frame _ _ _ _ _ H1 Ns)|].
    destruct (known n (h_int h)).
    { apply bind_ok in H1. destruct H1 as (z & _ & H1). exact (set_int_frame _ _ _ _ _ H1 Ni). }
    destruct (known n (h_bool h)).
    { apply bind_ok in H1. destruct H1 as (z & _ & H1). exact (set_bool_frame _ _ _ _ _ H1 Nb). }
    apply bind_ok in H1. destruct H1 as (z & _ & H1). exact (set_flt_frame _ _ _ _ _ H1 Nf).
Qed.

Theorem C29_others_unchanged R h c h' s : pstep R h c = Ok h' -> ~ writes c s -> same_slot s h h'.
Proof.
  destruct c; cbn [pstep writes]; intros H N.
  - exact (set_str_frame _ _ _ _ _ H N).
  - exact (set_int_frame _ _ _ _ _ H N).
  - exact (set_bool_frame _ _ _ _ _ H N).
  - exact (set_flt_frame _ _ _ _ _ H N).
  - exact (parse_frame R s _ args (le_n _) h h' H N).
Qed.

(** A command line has the effect of its set calls, in order: here one pair in front. *)
Theorem C29_command_line R h0 cs h n v rest : define_parameters = Ok h0 -> prun R h0 cs = Ok h ->
  (forall lo hi z, In (n, (lo, hi)) int_ranges -> rd_int R v = Some z ->
     parse_args R h (String "-" n :: v :: rest) = bind (set_int h n z) (fun h' => parse_args R h' rest))
  /\ (forall lo hi z, In (n, (lo, hi)) flt_ranges -> rd_flt R v = Some z ->
     parse_args R h (String "-" n :: v :: rest) = bind (set_flt h n z) (fun h' => parse_args R h' rest))
  /\ (forall vs, In (n, vs) str_values ->
     parse_args R h (String "-" n :: v :: rest) = bind (set_str h n v) (fun h' => parse_args R h' rest))
  /\ (forall b, In n bool_names -> rd_bool R v = Some b ->
     parse_args R h (String "-" n :: v :: rest) = bind (set_bool h n b) (fun h' => parse_args R h' rest)).
Proof.
  intros D H. pose proof (decl_run R cs h0 h D H) as DH. destruct DH as [(SI&SF&SS&SB) OK]. pose proof (conj (conj SI (conj SF (conj SS SB))) OK) as DH.
  assert (NI : forall m, (In m (map fst flt_ranges) \/ In m (map fst str_values) \/ In m bool_names) -> known m (h_int h) = false).
  { intros m I. apply known_none. apply (shape_none _ _ _ _ SI). destruct I as [I|[I|I]]; cbn [map fst flt_ranges str_values bool_names In] in I;
      repeat (destruct I as [<-|I]; [vm_compute; reflexivity|]); destruct I. }
  assert (NF : forall m, (In m (map fst int_ranges) \/ In m (map fst str_values) \/ In m bool_names) -> known m (h_flt h) = false).
  { intros m I. apply known_none. apply (shape_none _ _ _ _ SF). destruct I as [I|[I|I]]; cbn [map fst int_ranges str_values bool_names In] in I;
      repeat (destruct I as [<-|I]; [vm_compute; reflexivity|]); destruct I. }
  assert (NS : forall m, (In m (map fst int_ranges) \/ In m (map fst flt_ranges) \/ In m bool_names) -> known m (h_str h) = false).
  { intros m I. apply known_none. apply (shape_none _ _ _ _ SS). destruct I as [I|[I|I]]; cbn [map fst int_ranges flt_ranges bool_names In] in I;
      repeat (destruct I as [<-|I]; [vm_compute; reflexivity|]); destruct I. }
  assert (NB : forall m, (In m (map fst int_ranges) \/ In m (map fst flt_ranges) \/ In m (map fst str_values)) -> known m (h_bool h) = false).
  { intros m I. apply known_none. apply (shape_none _ _ _ _ SB). destruct I as [I|[I|I]]; cbn [map fst int_ranges flt_ranges str_values In] in I;
      repeat (destruct I as [<-|I]; [vm_compute; reflexivity|]); destruct I. }
  refine (conj _ (conj _ (conj _ _))).
  - intros lo hi z I E. pose proof (in_map fst _ _ I) as M. cbn [fst] in M. cbn [parse_args].
    destruct (decl_int h n lo hi DH I) as (e & G & _).
    assert (K : known n (h_int h) = true) by (apply known_get; eauto).
    rewrite (NS n), (NF n), (NB n), K by auto. cbn [orb]. rewrite E. reflexivity.
  - intros lo hi z I E. pose proof (in_map fst _ _ I) as M. cbn [fst] in M. cbn [parse_args].
    destruct (decl_flt h n lo hi DH I) as (e & G & _).
    assert (K : known n (h_flt h) = true) by (apply known_get; eauto).
    rewrite (NS n), (NI n), (NB n), K by auto. cbn [orb]. rewrite E. reflexivity.
  - intros [vs opt] I. pose proof (in_map fst _ _ I) as M. cbn [fst] in M. cbn [parse_args].
    destruct (decl_str h n vs opt DH I) as (e & G & _).
    assert (K : known n (h_str h) = true) by (apply known_get; eauto).
    rewrite K. reflexivity.
  - intros b I E. cbn [parse_args].
    destruct (decl_bool h n DH I) as (e & G).
    assert (K : known n (h_bool h) = true) by (apply known_get; eauto).
    rewrite (NS n), (NI n), (NF n), K by auto. cbn [orb]. rewrite E. reflexivity.
Qed.

(** Refuted for not-a-number: every float parameter accepts it. *)
Theorem C29_nan_refuted R h0 cs h n lo hi : define_parameters = Ok h0 -> prun R h0 cs = Ok h -> In (n, (lo, hi)) flt_ranges ->
  exists h', set_flt h n FNan = Ok h' /\ get_flt h' n = Ok FNan /\ ~ in_range lo hi FNan.
Proof.
  intros D H I. pose proof (decl_run R cs h0 h D H) as DH. destruct (decl_flt h n lo hi DH I) as (e & G & E1 & E2 & O).
  unfold set_flt. rewrite G. assert (K : check_flt e FNan = true) by (unfold check_flt; rewrite E1; reflexivity). rewrite K.
  eexists. split; [reflexivity|]. split; [unfold get_flt; cbn; rewrite get_put_same; reflexivity|]. intros (q & E & _). discriminate.
Qed.

(** Refuted: a command line whose last value is missing, or a blank numeric value, is neither accepted nor rejected. *)
Theorem C29_missing_value_refuted R h0 cs h : define_parameters = Ok h0 -> prun R h0 cs = Ok h -> parse_args R h ["-max-depth"] = Undef.
Proof.
  intros D H. pose proof (decl_run R cs h0 h D H) as DH.
  destruct (decl_int h "max-depth" 0 20 DH) as (e & G & _); [left; reflexivity|].
  assert (K : known "max-depth" (h_int h) = true) by (apply known_get; eauto). cbn [parse_args]. rewrite K, orb_true_r. reflexivity.
Qed.
Theorem C29_blank_value_refuted R h0 cs h v : define_parameters = Ok h0 -> prun R h0 cs = Ok h -> rd_int R v = None ->
  parse_args R h ["-max-depth"; v] = Undef.
Proof.
  intros D H E. pose proof (decl_run R cs h0 h D H) as DH. destruct DH as [(SI&SF&SS&SB) OK].
  pose proof (conj (conj SI (conj SF (conj SS SB))) OK) as DH.
  destruct (decl_int h "max-depth" 0 20 DH) as (e & G & _); [left; reflexivity|].
  assert (K : known "max-depth" (h_int h) = true) by (apply known_get; eauto).
  assert (N : known "max-depth" (h_str h) = false) by (apply known_none; apply (shape_none _ _ _ _ SS); vm_compute; reflexivity).
  cbn [parse_args]. rewrite K, N, orb_true_r. cbn [orb]. rewrite E. reflexivity.
Qed.

(** Declaring a name twice: rejected for strings, integers and floats; for Booleans it is not, and the first value is lost. *)
Theorem C29_declare_twice h n c : mem c (h_cats h) = true -> n <> "" ->
  (forall h1 d d' vs vs' o o', def_str h n d c vs o = Ok h1 -> def_str h1 n d' c vs' o' = Exit)
  /\ (forall h1 d d' lo hi lo' hi', def_int h n d c lo hi = Ok h1 -> def_int h1 n d' c lo' hi' = Exit)
  /\ (forall h1 d d' lo hi lo' hi', def_flt h n d c lo hi = Ok h1 -> def_flt h1 n d' c lo' hi' = Exit).
Proof.
  intros M NE. apply String.eqb_neq in NE. unfold def_str, def_int, def_flt. rewrite M, NE; cbn [negb]. refine (conj _ (conj _ _)).
  - intros h1 d d' vs vs' o o'. destruct (known n (h_str h)); [discriminate|]. intros [= <-]. cbn [h_cats h_str h_int h_flt]. rewrite M. cbn [negb]. unfold known. rewrite get_put_same. reflexivity.
  - intros h1 d d' lo hi lo' hi'. destruct (known n (h_int h)); [discriminate|]. intros [= <-]. cbn [h_cats h_str h_int h_flt]. rewrite M. cbn [negb]. unfold known. rewrite get_put_same. reflexivity.
  - intros h1 d d' lo hi lo' hi'. destruct (known n (h_flt h)); [discriminate|]. intros [= <-]. cbn [h_cats h_str h_int h_flt]. rewrite M. cbn [negb]. unfold known. rewrite get_put_same. reflexivity.
Qed.
Theorem C29_declare_bool_twice_refuted : exists h h1 h2,
  def_bool h "flag" true "c" = Ok h1 /\ def_bool h1 "flag" false "c" = Ok h2 /\ get_bool h1 "flag" = Ok true /\ get_bool h2 "flag" = Ok false.
Proof. exists (Handler ["c"] [] [] [] []). do 2 eexists. repeat split. Qed.

(** Non-vacuity: a run of calls, one by command line. *)
Definition rd0 : reader := Reader (fun s => if s =? "4" then Some 4%Z else Some 0%Z) (fun s => Some (s =? "1")) (fun _ => Some (fz 1)).
Example C29_ex : exists h0 h, define_parameters = Ok h0
  /\ prun rd0 h0 [PInt "max-num-nodes" 15; PArgs ["-max-depth"; "4"; "-verbose"; "0"; "-task"; "f1-score"]; PFlt "cost-complexity" (FNum (1 # 2))] = Ok h
  /\ get_int h "max-depth" = Ok 4%Z /\ get_bool h "verbose" = Ok false /\ get_str h "task" = Ok "f1-score" /\ check_parameters h = Ok tt.
Proof. exists h_decl. eexists. split; [exact define_decl|]. split; [vm_compute; reflexivity|]. vm_compute. repeat split. Qed.
Example C29_ex_unknown : unknown_name "max-dept".
Proof. unfold unknown_name. repeat split; intros I; cbn [map fst int_ranges flt_ranges str_values bool_names In] in I; repeat (destruct I as [I|I]; [discriminate|]); destruct I. Qed.

(** * C30: which budgets the check accepts. *)
Theorem C30_check R h0 cs h : define_parameters = Ok h0 -> prun R h0 cs = Ok h ->
  exists d n cc, get_int h "max-depth" = Ok d /\ get_int h "max-num-nodes" = Ok n /\ get_flt h "cost-complexity" = Ok cc
    /\ (0 <= d <= 20)%Z /\ (0 <= n)%Z
    /\ ((n <= 2 ^ d - 1)%Z /\ (n = 2 ^ d - 1 \/ cc = FNan \/ exists q, cc = FNum q /\ (q < 1 # 1000000)%Q)%Z -> check_parameters h = Ok tt)
    /\ (~ ((n <= 2 ^ d - 1)%Z /\ (n = 2 ^ d - 1 \/ cc = FNan \/ exists q, cc = FNum q /\ (q < 1 # 1000000)%Q)%Z) -> check_parameters h = Exit).
Proof.
  intros D H. destruct (C29_ranges R h0 cs h D H) as (WI & WF & _ & _).
  destruct (WI "max-depth" 0 20)%Z as (d & Gd & Rd); [left; reflexivity|].
  destruct (WI "max-num-nodes" 0 (2 ^ 31 - 1))%Z as (n & Gn & Rn); [right; left; reflexivity|].
  destruct (WF "cost-complexity" 0 1)%Z as (cc & Gc & Rc); [unfold flt_ranges; cbn [In]; auto 10|].
  exists d, n, cc. refine (conj Gd (conj Gn (conj Gc (conj Rd (conj (proj1 Rn) _))))).
  assert (P : (1 <= 2 ^ d <= 2 ^ 20)%Z) by (split; [change 1%Z with (2 ^ 0)%Z|]; apply Z.pow_le_mono_r; lia).
  assert (T : to_int32 (2 ^ d) = (2 ^ d)%Z) by (unfold to_int32; rewrite Z.mod_small; lia).
  unfold check_parameters. rewrite Gd. cbn [bind].
  replace ((d <? 0) || (63 <=? d))%Z with false by (symmetry; apply orb_false_iff; split; [apply Z.ltb_ge|apply Z.leb_gt]; lia).
  rewrite T, Gn, Gc. cbn zeta. cbn [bind].
  assert (CC : flt_ge cc (FNum (1 # 1000000)) = true <-> ~ (cc = FNan \/ exists q, cc = FNum q /\ (q < 1 # 1000000)%Q)).
  { destruct Rc as [->|(q & -> & L1 & L2)].
    - cbn. split; [discriminate|]. intros X. exfalso. apply X. now left.
    - cbn [flt_ge flt_gt]. rewrite negb_involutive, Qle_bool_iff. split.
      + intros L [E|(q' & E & L')]; [discriminate|]. injection E as <-. lra.
      + intros X. destruct (Qlt_le_dec q (1 # 1000000)) as [L|L]; [exfalso; apply X; right; eauto|exact L]. }
  split.
  - intros [L C]. destruct (Z.ltb_spec (2 ^ d - 1) n); [lia|]. destruct (Z.eqb_spec n (2 ^ d - 1)); [reflexivity|].
    destruct (flt_ge cc (FNum (1 # 1000000))); [|reflexivity]. exfalso. destruct C as [C|C]; [contradiction|]. apply (proj1 CC eq_refl). exact C.
  - intros C. destruct (Z.ltb_spec (2 ^ d - 1) n); [reflexivity|]. destruct (Z.eqb_spec n (2 ^ d - 1)) as [->|NE].
    + exfalso. apply C. split; [lia|now left].
    + destruct (flt_ge cc (FNum (1 # 1000000))) eqn:E; [reflexivity|]. exfalso. apply C. split; [lia|]. right.
      destruct Rc as [->|(q & -> & L1 & L2)]; [now left|]. right. exists q. split; [reflexivity|].
      destruct (Qlt_le_dec q (1 # 1000000)) as [L|L]; [exact L|]. exfalso.
      cbn [flt_ge flt_gt] in E. rewrite negb_involutive in E. apply Qle_bool_iff in L. congruence.
Qed.

(** * C57: which validated estimators reach the search. *)
Definition starts (s : settings) : Prop :=
  (s_time s <= inject_Z i32max)%Q /\ (s_ub s <= inject_Z ((2 ^ 53 - 1) * 2 ^ 971))%Q
  /\ (In (s_task s) cc_tasks -> node_budget s = (2 ^ s_depth s - 1)%Z \/ (s_cc s < 1 # 1000000)%Q).

Lemma do_int h n v lo hi : decl_h h -> In (n, (lo, hi)) int_ranges -> (lo <= v <= hi)%Z ->
  exists h', set_int h n v = Ok h' /\ decl_h h' /\ get_int h' n = Ok v /\ (forall s, s <> SInt n -> same_slot s h h').
Proof.
  intros DH I L. destruct (decl_int h n lo hi DH I) as (e & G & E1 & E2 & O).
  destruct (set_int h n v) as [h'| |] eqn:S.
  - exists h'. refine (conj eq_refl (conj (decl_set _ _ DH (set_int_keeps _ _ _ _ S)) (conj _ (fun s N => set_int_frame _ _ _ _ _ S N)))).
    unfold set_int in S. rewrite G in S. destruct (check_int e v); [|discriminate]. injection S as <-. unfold get_int; cbn. rewrite get_put_same. reflexivity.
  - exfalso. unfold set_int in S. rewrite G in S. assert (K : check_int e v = true).
    { unfold check_int. apply negb_true_iff, orb_false_iff. rewrite E1, E2. split; apply Z.ltb_ge; lia. }
    rewrite K in S. discriminate.
  - exfalso. unfold set_int in S. rewrite G in S. destruct (check_int e v); discriminate.
Qed.
Lemma do_flt h n q lo hi : decl_h h -> In (n, (lo, hi)) flt_ranges -> (inject_Z lo <= q)%Q -> (q <= inject_Z hi)%Q ->
  exists h', set_flt h n (FNum q) = Ok h' /\ decl_h h' /\ get_flt h' n = Ok (FNum q) /\ (forall s, s <> SFlt n -> same_slot s h h').
Proof.
  intros DH I L1 L2. destruct (decl_flt h n lo hi DH I) as (e & G & E1 & E2 & O).
  assert (K : check_flt e (FNum q) = true).
  { unfold check_flt. apply negb_true_iff, orb_false_iff. rewrite E1, E2. cbn. split; apply negb_false_iff, Qle_bool_iff; assumption. }
  assert (S : exists h', set_flt h n (FNum q) = Ok h' /\ get_flt h' n = Ok (FNum q)).
  { unfold set_flt, get_flt. rewrite G, K. eexists. split; [reflexivity|]. cbn. rewrite get_put_same. reflexivity. }
  destruct S as (h' & S & V). exists h'. exact (conj S (conj (decl_set _ _ DH (set_flt_keeps _ _ _ _ S)) (conj V (fun s N => set_flt_frame _ _ _ _ _ S N)))).
Qed.
Lemma do_flt_bad h n q lo hi : decl_h h -> In (n, (lo, hi)) flt_ranges -> ~ (q <= inject_Z hi)%Q -> set_flt h n (FNum q) = Exit.
Proof.
  intros DH I L. destruct (decl_flt h n lo hi DH I) as (e & G & E1 & E2 & O). unfold set_flt. rewrite G.
  assert (K : check_flt e (FNum q) = false).
  { unfold check_flt. apply negb_false_iff, orb_true_iff. right. rewrite E2. cbn. apply negb_true_iff.
    destruct (Qle_bool q (inject_Z hi)) eqn:E; [apply Qle_bool_iff in E; contradiction|reflexivity]. }
  rewrite K. reflexivity.
Qed.
Lemma do_str h n v vs : decl_h h -> In (n, (vs, false)) str_values -> In v vs ->
  exists h', set_str h n v = Ok h' /\ decl_h h' /\ get_str h' n = Ok v /\ (forall s, s <> SStr n -> same_slot s h h').
Proof.
  intros DH I L. destruct (decl_str h n vs false DH I) as (e & G & E1 & E2 & O).
  assert (K : check_str e v = true).
  { unfold check_str. rewrite E1, E2. cbn. destruct vs; [reflexivity|]. apply mem_in. exact L. }
  assert (S : exists h', set_str h n v = Ok h' /\ get_str h' n = Ok v).
  { unfold set_str, get_str. rewrite G, K. eexists. split; [reflexivity|]. cbn. rewrite get_put_same. reflexivity. }
  destruct S as (h' & S & V). exists h'. exact (conj S (conj (decl_set _ _ DH (set_str_keeps _ _ _ _ S)) (conj V (fun s N => set_str_frame _ _ _ _ _ S N)))).
Qed.
Lemma do_bool h n v : decl_h h -> In n bool_names ->
  exists h', set_bool h n v = Ok h' /\ decl_h h' /\ get_bool h' n = Ok v /\ (forall s, s <> SBool n -> same_slot s h h').
Proof.
  intros DH I. destruct (decl_bool h n DH I) as (e & G).
  assert (S : exists h', set_bool h n v = Ok h' /\ get_bool h' n = Ok v).
  { unfold set_bool, get_bool. rewrite G. eexists. split; [reflexivity|]. cbn. rewrite get_put_same. reflexivity. }
  destruct S as (h' & S & V). exists h'. exact (conj S (conj (decl_set _ _ DH (set_bool_keeps _ _ _ _ S)) (conj V (fun s N => set_bool_frame _ _ _ _ _ S N)))).
Qed.

Lemma slot_int h h' n : same_slot (SInt n) h h' -> get_int h' n = get_int h n.
Proof. auto. Qed.
Lemma slot_flt h h' n : same_slot (SFlt n) h h' -> get_flt h' n = get_flt h n.
Proof. auto. Qed.

Lemma budget_range s : validated s = true -> (0 <= s_depth s <= 20)%Z /\ (0 <= node_budget s <= 2 ^ s_depth s - 1)%Z /\ (1 <= s_mls s <= i32max)%Z
  /\ (-1 <= s_seed s <= i32max)%Z /\ In (s_task s) tasks /\ In (s_order s) ["in-order"; "gini"]
  /\ (0 < s_time s)%Q /\ (0 <= s_cc s)%Q /\ (s_cc s <= 1)%Q /\ (0 <= s_ub s)%Q.
Proof.
  unfold validated. rewrite !andb_true_iff. intros ((((((((((((A&B)&C)&D)&E)&F)&G)&H)&I)&J)&K)&L)&M).
  apply Z.leb_le in B, C, E, F, L, M. apply mem_in in A, J. apply Qle_bool_iff in H, I, K.
  apply negb_true_iff in G. assert (P : (1 <= 2 ^ s_depth s)%Z) by (change 1%Z with (2 ^ 0)%Z; apply Z.pow_le_mono_r; lia).
  refine (conj (conj B C) (conj _ (conj (conj E F) (conj (conj L M) (conj A (conj J (conj _ (conj H (conj I K))))))))).
  - unfold node_budget. destruct (s_nodes s) as [n|]; [|lia]. apply andb_true_iff in D. destruct D as [D1 D2]. apply Z.leb_le in D1, D2.
    destruct (Z.ltb_spec (2 ^ s_depth s - 1) n); lia.
  - destruct (Qlt_le_dec 0 (s_time s)) as [X|X]; [exact X|]. apply Qle_bool_iff in X. congruence.
Qed.

Lemma py_start_cases R s : validated s = true ->
  (starts s /\ exists h, py_start R s = Ok h /\ well_set h /\ get_int h "max-depth" = Ok (s_depth s) /\ get_int h "max-num-nodes" = Ok (node_budget s)
     /\ get_int h "min-leaf-node-size" = Ok (s_mls s))
  \/ (~ starts s /\ py_start R s = Exit).
Proof.
  intros V. destruct (budget_range s V) as (Bd & Bn & Bm & Bs & Bt & Bo & Tp & C0 & C1 & U0).
  unfold py_start. rewrite define_decl. cbn [bind].
  assert (P20 : (2 ^ s_depth s <= 2 ^ 20)%Z) by (apply Z.pow_le_mono_r; lia).
  assert (D0 : decl_h h_decl) by (split; [apply same_shape_refl|apply decl_ok]).
  destruct (do_str h_decl "task" (s_task s) _ D0 (or_introl eq_refl)) as (h1 & E1 & D1 & _ & F1).
  { unfold tasks in Bt. cbn [In] in Bt |- *. tauto. }
  destruct (do_bool h1 "hyper-tune" (s_tune s) D1) as (h2 & E2 & D2 & _ & F2); [cbn; auto 20|].
  destruct (do_int h2 "max-depth" (s_depth s) 0 20 D2) as (h3 & E3 & D3 & V3 & F3); [now left|lia|].
  destruct (do_int h3 "max-num-nodes" (node_budget s) 0 (2 ^ 31 - 1) D3) as (h4 & E4 & D4 & V4 & F4); [right; now left|lia|].
  destruct (do_bool h4 "all-trees" (s_all s) D4) as (h5 & E5 & D5 & _ & F5); [cbn; auto 20|].
  destruct (do_int h5 "min-leaf-node-size" (s_mls s) 1 (2 ^ 31 - 1) D5) as (h6 & E6 & D6 & V6 & F6); [unfold int_ranges; cbn [In]; auto 20|unfold i32max in Bm; lia|].
  assert (It : In ("time", (0, 2 ^ 31 - 1)%Z) flt_ranges) by now left.
  assert (Iu : In ("upper-bound", (0, (2 ^ 53 - 1) * 2 ^ 971)%Z) flt_ranges) by (right; right; now left).
  assert (Ic : In ("cost-complexity", (0, 1)%Z) flt_ranges) by (do 4 right; now left).
  destruct (Qlt_le_dec (inject_Z i32max) (s_time s)) as [TB|TB].
  { right. split; [intros (X & _); lra|]. unfold py_calls. cbn [prun pstep].
    rewrite E1; cbn [bind]. rewrite E2; cbn [bind]. rewrite E3; cbn [bind]. rewrite E4; cbn [bind]. rewrite E5; cbn [bind]. rewrite E6; cbn [bind].
    rewrite (do_flt_bad h6 "time" _ _ _ D6 It); [reflexivity|]. change (2 ^ 31 - 1)%Z with i32max. lra. }
  destruct (do_flt h6 "time" (s_time s) 0 (2 ^ 31 - 1) D6 It) as (h7 & E7 & D7 & _ & F7).
  { change (inject_Z 0) with 0%Q. lra. } { exact TB. }
  set (ccv := if mem (s_task s) cc_tasks then s_cc s else 0%Q).
  assert (Ecc : (if mem (s_task s) cc_tasks then FNum (s_cc s) else fz 0) = FNum ccv) by (unfold ccv; destruct (mem (s_task s) cc_tasks); reflexivity).
  destruct (do_flt h7 "cost-complexity" ccv 0 1 D7 Ic) as (h8 & E8 & D8 & V8 & F8).
  { unfold ccv. destruct (mem _ _); change (inject_Z 0) with 0%Q; lra. } { unfold ccv. destruct (mem _ _); change (inject_Z 1) with 1%Q; lra. }
  destruct (do_str h8 "feature-ordering" (s_order s) _ D8 (or_intror (or_intror (or_intror (or_introl eq_refl))))) as (h9 & E9 & D9 & _ & F9); [exact Bo|].
  destruct (do_bool h9 "verbose" (s_verbose s) D9) as (h10 & E10 & D10 & _ & F10); [cbn; auto 20|].
  destruct (do_int h10 "random-seed" (s_seed s) (-1) (2 ^ 31 - 1) D10) as (h11 & E11 & D11 & _ & F11); [unfold int_ranges; cbn [In]; auto 20|unfold i32max in Bs; lia|].
  destruct (do_bool h11 "use-branch-caching" (s_branch s) D11) as (h12 & E12 & D12 & _ & F12); [cbn; auto 20|].
  destruct (do_bool h12 "use-dataset-caching" (s_data s) D12) as (h13 & E13 & D13 & _ & F13); [cbn; auto 20|].
  destruct (do_bool h13 "use-terminal-solver" (s_term s) D13) as (h14 & E14 & D14 & _ & F14); [cbn; auto 20|].
  destruct (do_bool h14 "use-similarity-lower-bound" (s_sim s) D14) as (h15 & E15 & D15 & _ & F15); [cbn; auto 20|].
  destruct (do_bool h15 "use-upper-bound" (s_use_ub s) D15) as (h16 & E16 & D16 & _ & F16); [cbn; auto 20|].
  destruct (do_bool h16 "use-lower-bound" (s_use_lb s) D16) as (h17 & E17 & D17 & _ & F17); [cbn; auto 20|].
  assert (RUN : forall X, prun R h_decl (py_calls s) = X <-> bind (set_flt h17 "upper-bound" (FNum (s_ub s))) (fun h' => Ok h') = X).
  { intros X. unfold py_calls. cbn [prun pstep]. rewrite Ecc.
    rewrite E1; cbn [bind]. rewrite E2; cbn [bind]. rewrite E3; cbn [bind]. rewrite E4; cbn [bind]. rewrite E5; cbn [bind]. rewrite E6; cbn [bind].
    rewrite E7; cbn [bind]. rewrite E8; cbn [bind]. rewrite E9; cbn [bind]. rewrite E10; cbn [bind]. rewrite E11; cbn [bind]. rewrite E12; cbn [bind].
    rewrite E13; cbn [bind]. rewrite E14; cbn [bind]. rewrite E15; cbn [bind]. rewrite E16; cbn [bind]. rewrite E17; cbn [bind]. reflexivity. }
  destruct (Qlt_le_dec (inject_Z ((2 ^ 53 - 1) * 2 ^ 971)) (s_ub s)) as [UB|UB].
  { right. split; [intros (_ & X & _); apply (Qlt_not_le _ _ UB); exact X|].
    rewrite (proj2 (RUN Exit)); [reflexivity|]. rewrite (do_flt_bad h17 "upper-bound" _ _ _ D17 Iu); [reflexivity|]. apply Qlt_not_le. exact UB. }
  destruct (do_flt h17 "upper-bound" (s_ub s) 0 _ D17 Iu U0 UB) as (h18 & E18 & D18 & _ & F18).
  assert (OK : prun R h_decl (py_calls s) = Ok h18) by (apply RUN; rewrite E18; reflexivity).
  rewrite OK. cbn [bind].
  assert (GD : get_int h18 "max-depth" = Ok (s_depth s)).
  { rewrite (slot_int _ _ _ (F18 (SInt "max-depth") ltac:(discriminate))). rewrite (slot_int _ _ _ (F17 (SInt "max-depth") ltac:(discriminate))).
    rewrite (slot_int _ _ _ (F16 (SInt "max-depth") ltac:(discriminate))). rewrite (slot_int _ _ _ (F15 (SInt "max-depth") ltac:(discriminate))).
    rewrite (slot_int _ _ _ (F14 (SInt "max-depth") ltac:(discriminate))). rewrite (slot_int _ _ _ (F13 (SInt "max-depth") ltac:(discriminate))).
    rewrite (slot_int _ _ _ (F12 (SInt "max-depth") ltac:(discriminate))). rewrite (slot_int _ _ _ (F11 (SInt "max-depth") ltac:(discriminate))).
    rewrite (slot_int _ _ _ (F10 (SInt "max-depth") ltac:(discriminate))). rewrite (slot_int _ _ _ (F9 (SInt "max-depth") ltac:(discriminate))).
    rewrite (slot_int _ _ _ (F8 (SInt "max-depth") ltac:(discriminate))). rewrite (slot_int _ _ _ (F7 (SInt "max-depth") ltac:(discriminate))).
    rewrite (slot_int _ _ _ (F6 (SInt "max-depth") ltac:(discriminate))). rewrite (slot_int _ _ _ (F5 (SInt "max-depth") ltac:(discriminate))).
    rewrite (slot_int _ _ _ (F4 (SInt "max-depth") ltac:(discriminate))). exact V3. }
  assert (GN : get_int h18 "max-num-nodes" = Ok (node_budget s)).
  { rewrite (slot_int _ _ _ (F18 (SInt "max-num-nodes") ltac:(discriminate))). rewrite (slot_int _ _ _ (F17 (SInt "max-num-nodes") ltac:(discriminate))).
    rewrite (slot_int _ _ _ (F16 (SInt "max-num-nodes") ltac:(discriminate))). rewrite (slot_int _ _ _ (F15 (SInt "max-num-nodes") ltac:(discriminate))).
    rewrite (slot_int _ _ _ (F14 (SInt "max-num-nodes") ltac:(discriminate))). rewrite (slot_int _ _ _ (F13 (SInt "max-num-nodes") ltac:(discriminate))).
    rewrite (slot_int _ _ _ (F12 (SInt "max-num-nodes") ltac:(discriminate))). rewrite (slot_int _ _ _ (F11 (SInt "max-num-nodes") ltac:(discriminate))).
    rewrite (slot_int _ _ _ (F10 (SInt "max-num-nodes") ltac:(discriminate))). rewrite (slot_int _ _ _ (F9 (SInt "max-num-nodes") ltac:(discriminate))).
    rewrite (slot_int _ _ _ (F8 (SInt "max-num-nodes") ltac:(discriminate))). rewrite (slot_int _ _ _ (F7 (SInt "max-num-nodes") ltac:(discriminate))).
    rewrite (slot_int _ _ _ (F6 (SInt "max-num-nodes") ltac:(discriminate))). rewrite (slot_int _ _ _ (F5 (SInt "max-num-nodes") ltac:(discriminate))). exact V4. }
  assert (GM : get_int h18 "min-leaf-node-size" = Ok (s_mls s)).
  { rewrite (slot_int _ _ _ (F18 (SInt "min-leaf-node-size") ltac:(discriminate))). rewrite (slot_int _ _ _ (F17 (SInt "min-leaf-node-size") ltac:(discriminate))).
    rewrite (slot_int _ _ _ (F16 (SInt "min-leaf-node-size") ltac:(discriminate))). rewrite (slot_int _ _ _ (F15 (SInt "min-leaf-node-size") ltac:(discriminate))).
    rewrite (slot_int _ _ _ (F14 (SInt "min-leaf-node-size") ltac:(discriminate))). rewrite (slot_int _ _ _ (F13 (SInt "min-leaf-node-size") ltac:(discriminate))).
    rewrite (slot_int _ _ _ (F12 (SInt "min-leaf-node-size") ltac:(discriminate))). rewrite (slot_int _ _ _ (F11 (SInt "min-leaf-node-size") ltac:(discriminate))).
    rewrite (slot_int _ _ _ (F10 (SInt "min-leaf-node-size") ltac:(discriminate))). rewrite (slot_int _ _ _ (F9 (SInt "min-leaf-node-size") ltac:(discriminate))).
    rewrite (slot_int _ _ _ (F8 (SInt "min-leaf-node-size") ltac:(discriminate))). rewrite (slot_int _ _ _ (F7 (SInt "min-leaf-node-size") ltac:(discriminate))). exact V6. }
  assert (GC : get_flt h18 "cost-complexity" = Ok (FNum ccv)).
  { rewrite (slot_flt _ _ _ (F18 (SFlt "cost-complexity") ltac:(discriminate))). rewrite (slot_flt _ _ _ (F17 (SFlt "cost-complexity") ltac:(discriminate))).
    rewrite (slot_flt _ _ _ (F16 (SFlt "cost-complexity") ltac:(discriminate))). rewrite (slot_flt _ _ _ (F15 (SFlt "cost-complexity") ltac:(discriminate))).
    rewrite (slot_flt _ _ _ (F14 (SFlt "cost-complexity") ltac:(discriminate))). rewrite (slot_flt _ _ _ (F13 (SFlt "cost-complexity") ltac:(discriminate))).
    rewrite (slot_flt _ _ _ (F12 (SFlt "cost-complexity") ltac:(discriminate))). rewrite (slot_flt _ _ _ (F11 (SFlt "cost-complexity") ltac:(discriminate))).
    rewrite (slot_flt _ _ _ (F10 (SFlt "cost-complexity") ltac:(discriminate))). rewrite (slot_flt _ _ _ (F9 (SFlt "cost-complexity") ltac:(discriminate))). exact V8. }
  destruct (C30_check R h_decl (py_calls s) h18 define_decl OK) as (d & n & cc & Xd & Xn & Xc & _ & _ & GOOD & BAD).
  rewrite GD in Xd. rewrite GN in Xn. rewrite GC in Xc. injection Xd as <-. injection Xn as <-. injection Xc as <-.
  assert (DEC : starts s <-> (node_budget s = 2 ^ s_depth s - 1)%Z \/ (ccv < 1 # 1000000)%Q).
  { unfold starts, ccv. destruct (mem (s_task s) cc_tasks) eqn:M.
    - apply mem_in in M. split; [intros (_ & _ & X); exact (X M)|]. intros X. exact (conj TB (conj UB (fun _ => X))).
    - split; [intros _; right; reflexivity|]. intros _. refine (conj TB (conj UB _)). intros I. apply mem_in in I. congruence. }
  assert (DD : ((node_budget s = 2 ^ s_depth s - 1)%Z \/ (ccv < 1 # 1000000)%Q) \/ ~ ((node_budget s = 2 ^ s_depth s - 1)%Z \/ (ccv < 1 # 1000000)%Q)).
  { destruct (Z.eq_dec (node_budget s) (2 ^ s_depth s - 1)); [left; now left|]. destruct (Qlt_le_dec ccv (1 # 1000000)) as [L|L]; [left; now right|].
    right. intros [X|X]; [contradiction|lra]. }
  destruct DD as [Y|Y].
  - left. split; [apply DEC; exact Y|]. exists h18. rewrite GOOD.
    + cbn [bind]. refine (conj eq_refl (conj (well_of _ D18) (conj GD (conj GN GM)))).
    + split; [lia|]. destruct Y as [Y|Y]; [now left|]. right; right. eauto.
  - right. split; [rewrite DEC; exact Y|]. rewrite BAD; [reflexivity|]. intros (_ & X). apply Y.
    destruct X as [X|[X|(q & X & L)]]; [now left|discriminate|]. injection X as <-. now right.
Qed.

(** Exactly the settings that meet [starts] reach the search; the others end the process. *)
Theorem C57_exact R s : validated s = true ->
  (starts s -> exists h, py_start R s = Ok h) /\ (~ starts s -> py_start R s = Exit).
Proof.
  intros V. destruct (py_start_cases R s V) as [(S & h & E & _)|(S & E)].
  - split; [eauto|contradiction].
  - split; [contradiction|auto].
Qed.

(** Refuted: the default cost complexity 0.01 with a smaller node budget, or a long time limit. *)
Definition s_base (task : string) (nodes : option Z) (time : Q) : settings :=
  Settings task 3 nodes 1 time (1 # 100) "gini" (inject_Z (2 ^ 31 - 1)) 27 false false false false true true true true true.
Theorem C57_nodes_refuted R : let s := s_base "cost-complex-accuracy" (Some 3%Z) 600 in validated s = true /\ py_start R s = Exit.
Proof. split; vm_compute; reflexivity. Qed.
Theorem C57_time_refuted R : let s := s_base "accuracy" None (inject_Z (2 ^ 31)) in validated s = true /\ py_start R s = Exit.
Proof. split; vm_compute; reflexivity. Qed.
Example C57_ex R : let s := s_base "accuracy" (Some 5%Z) 600 in validated s = true /\ starts s /\ exists h, py_start R s = Ok h.
Proof.
  assert (V : validated (s_base "accuracy" (Some 5%Z) 600) = true) by (vm_compute; reflexivity).
  assert (S : starts (s_base "accuracy" (Some 5%Z) 600)).
  { split; [unfold Qle; cbn; lia|]. split; [apply Qle_bool_iff; vm_compute; reflexivity|]. cbn. intuition discriminate. }
  exact (conj V (conj S (proj1 (C57_exact R _ V) S))).
Qed.

(** C30: the budgets an estimator passes on never exceed a full tree and never grow. *)
Theorem C30_estimator R s h : validated s = true -> py_start R s = Ok h ->
  exists n, get_int h "max-depth" = Ok (s_depth s) /\ get_int h "max-num-nodes" = Ok n /\ get_int h "min-leaf-node-size" = Ok (s_mls s)
    /\ (0 <= n <= 2 ^ s_depth s - 1)%Z
    /\ match s_nodes s with None => n = (2 ^ s_depth s - 1)%Z | Some k => n = Z.min k (2 ^ s_depth s - 1) end.
Proof.
  intros V E. destruct (py_start_cases R s V) as [(S & h' & E' & _ & GD & GN & GM)|(S & E')]; rewrite E in E'; [|discriminate].
  injection E' as <-. exists (node_budget s). refine (conj GD (conj GN (conj GM (conj (proj1 (proj2 (budget_range s V))) _)))).
  unfold node_budget. destruct (s_nodes s) as [k|]; [|reflexivity]. destruct (Z.ltb_spec (2 ^ s_depth s - 1) k); lia.
Qed.

Print Assumptions C29_ranges.
Print Assumptions C29_accepts.
Print Assumptions C29_rejects.
Print Assumptions C29_unknown.
Print Assumptions C29_others_unchanged.
Print Assumptions C29_command_line.
Print Assumptions C29_nan_refuted.
Print Assumptions C29_missing_value_refuted.
Print Assumptions C29_blank_value_refuted.
Print Assumptions C29_declare_twice.
Print Assumptions C29_declare_bool_twice_refuted.
Print Assumptions C30_check.
Print Assumptions C30_estimator.
Print Assumptions C57_exact.
Print Assumptions C57_nodes_refuted.
Print Assumptions C57_time_refuted.
