(** C102: what is printed for a node of a tree on a binarised data frame. *)
From Coq Require Import List String Ascii ZArith QArith Qabs Bool Arith Lia Lqa Permutation.
From Verif Require Import Model_Terminal Spec_Rows Spec_Printed Model_Printed Proofs_Printed.
Import ListNotations.
Local Open Scope string_scope.

(** The frames considered: labels of columns and values of categorical columns have no "<", and
    the texts of a categorical column that gives one indicator only have no quote. *)
Record plain (labels : list (option string)) (n : nat) (rows : list (list cell)) (bins cats : list nat) (cuts : list (nat * list number)) : Prop := {
  pl_label : forall j, In j (bins ++ cats ++ map fst cuts)%list -> exists s, nth j labels None = Some s /\ has "<" s = false;
  pl_value : forall j r, In j cats -> In r rows ->
    match at_ r j with Txt s => has "<" s = false | Flt x => (0 <= n_dig x)%Z | Int _ => True end;
  pl_quote : forall j r s, In j cats -> In r rows -> at_ r j = Txt s ->
    n = 2%nat \/ List.length (distinct_cells [] (map (fun r => at_ r j) rows)) = 2%nat -> has "'" s = false;
  pl_cut : forall j ts t, In (j, ts) cuts -> In t ts -> (0 <= n_dig t)%Z }.

Lemma name_kept labels j s js i : nth j labels None = Some s -> (forall k, In k js -> exists s, nth k labels None = Some s /\ has "<" s = false) ->
  nth i js 0%nat = j -> part_name labels js i = s.
Proof.
  intros H A E. unfold part_name. assert (B : all_text labels js = true).
  { apply forallb_forall. intros k K. destruct (A k K) as (s' & -> & _). reflexivity. }
  rewrite B. unfold label. rewrite E, H. reflexivity.
Qed.
Lemma label_of labels j s : nth j labels None = Some s -> label labels j = s.
Proof. unfold label. intros ->. reflexivity. Qed.
Lemma no_sep nm : has "<" nm = false -> predicate_str "<=" nm = Some nm.
Proof. intro H. unfold predicate_str. rewrite pieces_none by exact H. reflexivity. Qed.

(** What is claimed of one column. *)
Definition described (nm : nat -> string) (c : bcol) : Prop :=
  exists text shown tested, predicate_str "<=" (bc_name c) = Some text /\ says nm text shown
    /\ (forall row, col_bit c row = holds row tested) /\ close shown tested.
Lemma exactly nm c cond : predicate_str "<=" (bc_name c) = Some (bc_name c) -> says nm (bc_name c) cond -> (forall row, col_bit c row = holds row cond) -> described nm c.
Proof. intros A B C. exists (bc_name c), cond, cond. repeat split; auto. left. reflexivity. Qed.
Lemma one_value labels j s v : label labels j = s -> has "<" s = false -> fine v -> described (label labels) (BCol j (TEqual v) (s ++ " == " ++ show_cell v)).
Proof.
  intros L Hs Hv. apply exactly with (cond := IsValue j v).
  - apply no_sep. cbn [bc_name]. rewrite !has_app, Hs, show_cell_free by exact Hv. reflexivity.
  - cbn [bc_name]. rewrite <- L. apply s_value, show_cell_text, Hv.
  - reflexivity.
Qed.
Lemma cat_described labels n j s col c : label labels j = s -> has "<" s = false -> Forall fine col ->
  (n = 2%nat \/ List.length (distinct_cells [] col) = 2%nat -> Forall quote_free col) -> In c (cat_columns n j s col) -> described (label labels) c.
Proof.
  intros L Hs Hf Hq. unfold cat_columns. set (vs := distinct_cells [] col) in *.
  assert (F : Forall fine vs). { rewrite Forall_forall in *. intros x X. apply Hf. eapply distinct_in. exact X. }
  destruct (Nat.leb_spec n 1); [intros []|]. destruct (Nat.leb_spec (List.length vs) 1) as [|L1]; [intros []|]. cbn [orb].
  assert (One : forall v, In v vs -> described (label labels) (BCol j (TEqual v) (s ++ " == " ++ show_cell v))).
  { intros v V. apply one_value; [exact L|exact Hs|]. rewrite Forall_forall in F. apply F, V. }
  destruct ((n =? 2)%nat || (List.length vs =? 2)%nat) eqn:T.
  - intros [<-|[]]. assert (T' : n = 2%nat \/ List.length vs = 2%nat).
    { apply orb_true_iff in T. destruct T as [T|T]; apply Nat.eqb_eq in T; auto. }
    pose proof (second_in col L1) as S. specialize (Hq T'). rewrite Forall_forall in Hq, Hf. rewrite second_same by (apply Hq, S).
    apply one_value; [exact L|exact Hs|apply Hf, S].
  - destruct (Nat.ltb_spec n (List.length vs)) as [M|M]; intro I.
    + apply in_app_iff in I. destruct I as [I|[<-|[]]].
      * apply in_map_iff in I. destruct I as (v & <- & V). apply One.
        rewrite <- (firstn_skipn (n - 1) vs). apply in_app_iff. left. exact V.
      * set (g := skipn (n - 1) vs). assert (G : Forall fine g).
        { rewrite Forall_forall in *. intros x X. apply F. rewrite <- (firstn_skipn (n - 1) vs). apply in_app_iff. right. exact X. }
        assert (N : g <> []). { intro E. apply (f_equal (@List.length cell)) in E. unfold g in E. rewrite skipn_length in E. cbn in E. lia. }
        apply exactly with (cond := IsIn j g).
        -- apply no_sep. cbn [bc_name]. rewrite !has_app, Hs, join_free by exact G. reflexivity.
        -- cbn [bc_name]. rewrite <- L. apply s_in, join_text; assumption.
        -- reflexivity.
    + apply in_map_iff in I. destruct I as (v & <- & V). apply One, V.
Qed.
Lemma cut_described labels j s ts c : label labels j = s -> has "<" s = false -> (forall t, In t ts -> (0 <= n_dig t)%Z) -> In c (cut_columns j s ts) -> described (label labels) c.
Proof.
  intros L Hs Ht I. apply in_map_iff in I. destruct I as (t & <- & T). destruct (printed_cut s t Hs (Ht t T)) as (txt & u & P & R & N & _).
  exists (s ++ " <= " ++ txt), (AtMost j u), (AtMost j (value t)). split; [exact P|]. split; [rewrite <- L; apply s_most; exact R|]. split; [reflexivity|].
  right. exists j, u, (value t). auto.
Qed.
Lemma all_described labels n rows bins cats cuts c : plain labels n rows bins cats cuts -> In c (frame_columns labels n rows bins cats cuts) -> described (label labels) c.
Proof.
  intros P. unfold frame_columns. rewrite !in_app_iff. intros [I|[I|I]].
  - apply in_map_iff in I. destruct I as (i & <- & I). apply in_seq in I. pose proof (nth_In bins 0%nat (proj2 I)) as J.
    destruct (pl_label _ _ _ _ _ _ P (nth i bins 0%nat)) as (s & A & B); [apply in_app_iff; left; exact J|].
    apply exactly with (cond := IsOne (nth i bins 0%nat)); cbn [bc_name]; unfold binary_name; rewrite A.
    + apply no_sep, B.
    + rewrite <- (label_of _ _ _ A). apply s_one.
    + reflexivity.
  - apply in_flat_map in I. destruct I as (i & S & I). apply in_seq in S. pose proof (nth_In cats 0%nat (proj2 S)) as J. set (j := nth i cats 0%nat) in *.
    destruct (pl_label _ _ _ _ _ _ P j) as (s & A & B); [rewrite !in_app_iff; auto|].
    rewrite (name_kept labels j s cats i A) in I; [|intros k K; apply (pl_label _ _ _ _ _ _ P); rewrite !in_app_iff; auto|reflexivity].
    eapply cat_described; [apply label_of; exact A|exact B| | |exact I].
    + apply Forall_forall. intros x X. apply in_map_iff in X. destruct X as (r & <- & R). exact (pl_value _ _ _ _ _ _ P j r J R).
    + intro T. apply Forall_forall. intros x X. apply in_map_iff in X. destruct X as (r & <- & R). unfold quote_free. destruct (at_ r j) eqn:E; [exact Logic.I|exact Logic.I|].
      exact (pl_quote _ _ _ _ _ _ P j r _ J R E T).
  - apply in_flat_map in I. destruct I as (i & S & I). apply in_seq in S. pose proof (nth_In cuts (0%nat, []) (proj2 S)) as J.
    destruct (nth i cuts (0%nat, [])) as [j ts] eqn:E. cbn [fst snd] in I.
    destruct (pl_label _ _ _ _ _ _ P j) as (s & A & B); [rewrite !in_app_iff; right; right; apply in_map_iff; exists (j, ts); auto|].
    rewrite (name_kept labels j s (map fst cuts) i A) in I.
    + eapply cut_described; [apply label_of; exact A|exact B| |exact I]. intros t T. exact (pl_cut _ _ _ _ _ _ P j ts t J T).
    + intros k K. apply (pl_label _ _ _ _ _ _ P). rewrite !in_app_iff. auto.
    + change (nth i (map fst cuts) (fst (0%nat, @nil number)) = j). rewrite map_nth, E. reflexivity.
Qed.

(** C102: the condition printed for a node says, in terms of the columns of the user's table, what
    the node tests; only a threshold can be off, by at most half a percent. *)
Theorem C102_conditions_partial labels n rows bins cats cuts f c :
  plain labels n rows bins cats cuts ->
  let cols := frame_columns labels n rows bins cats cuts in
  nth_error cols f = Some c ->
  exists text shown tested, printed cols f = Some text /\ says (label labels) text shown
    /\ (forall row, col_bit c row = holds row tested) /\ close shown tested.
Proof.
  intros P cols E. destruct (all_described _ _ _ _ _ _ c P (nth_error_In _ _ E)) as (text & shown & tested & A & B & C & D).
  exists text, shown, tested. unfold printed. rewrite E. auto.
Qed.

Lemma le_same row shown tested : close shown tested -> ~ between row shown tested -> holds row shown = holds row tested.
Proof.
  intros [->|(j & u & t & -> & -> & _)] N; [reflexivity|]. cbn [holds]. unfold cell_le.
  assert (K : forall q, cell_value (at_ row j) = Some q -> Qle_bool q u = Qle_bool q t).
  { intros q V. destruct (Qle_bool q u) eqn:A, (Qle_bool q t) eqn:B; try reflexivity; exfalso; apply N; exists j, u, t, q; do 3 (split; [reflexivity || exact V|]).
    - right. apply Qle_bool_iff in A. split; [|exact A]. apply Qnot_le_lt. intro X. apply Qle_bool_iff in X. congruence.
    - left. apply Qle_bool_iff in B. split; [|exact B]. apply Qnot_le_lt. intro X. apply Qle_bool_iff in X. congruence. }
  destruct (at_ row j); [apply K; reflexivity|apply K; reflexivity|reflexivity].
Qed.
Lemma choose {A} (P : nat -> A -> Prop) (d : A) w : (forall f, (f < w)%nat -> exists a, P f a) -> exists g, forall f, (f < w)%nat -> P f (g f).
Proof.
  induction w as [|w IH]; intro H; [exists (fun _ => d); lia|]. destruct IH as [g G]; [intros f F; apply H; lia|]. destruct (H w ltac:(lia)) as [a Ha].
  exists (fun f => if (f =? w)%nat then a else g f). intros f F. destruct (Nat.eqb_spec f w) as [->|N]; [exact Ha|apply G; lia].
Qed.
(** C102: whoever follows the printed conditions with the values of a row ends in the leaf the
    tree assigns to the row, unless a value lies between a threshold and its printed form. *)
Theorem C102_follow_partial labels n rows bins cats cuts :
  plain labels n rows bins cats cuts ->
  let cols := frame_columns labels n rows bins cats cuts in
  exists shown tested : nat -> cond,
    (forall f, (f < List.length cols)%nat -> exists text, printed cols f = Some text /\ says (label labels) text (shown f) /\ close (shown f) (tested f))
    /\ forall t row, features_below (List.length cols) t ->
         (forall f, (f < List.length cols)%nat -> ~ between row (shown f) (tested f)) ->
         follow shown row t = row_predict t (bits cols row).
Proof.
  intros P cols.
  destruct (choose (fun f (p : cond * cond) => exists text c, nth_error cols f = Some c /\ printed cols f = Some text /\ says (label labels) text (fst p) /\ (forall row, col_bit c row = holds row (snd p)) /\ close (fst p) (snd p)) (IsOne 0, IsOne 0) (List.length cols)) as [g G].
  { intros f F. destruct (nth_error cols f) as [c|] eqn:E; [|apply nth_error_None in E; lia].
    destruct (C102_conditions_partial labels n rows bins cats cuts f c P E) as (text & shown & tested & A & B & C & D).
    exists (shown, tested), text, c. cbn [fst snd]. auto. }
  exists (fun f => fst (g f)), (fun f => snd (g f)). split.
  - intros f F. destruct (G f F) as (text & c & _ & A & B & _ & D). exists text. auto.
  - intros t row H N. induction t as [l|f l IHl r IHr]; [reflexivity|]. destruct H as (F & Hl & Hr). cbn [follow row_predict].
    destruct (G f F) as (text & c & E & _ & _ & C & D). rewrite (le_same row _ _ D (N f F)), <- C.
    assert (B : nth f (bits cols row) 0%nat = if col_bit c row then 1%nat else 0%nat).
    { unfold bits. apply nth_error_nth. erewrite map_nth_error by exact E. reflexivity. }
    rewrite B. destruct (col_bit c row); cbn [Nat.eqb]; [apply IHr, Hr|apply IHl, Hl].
Qed.

(** C102: thresholds with few decimals are printed exactly. *)
Theorem C102_exact s t : has "<" s = false -> (0 <= n_dig t)%Z ->
  (exists z, value t == inject_Z z) \/ ((n_dec t <= 6)%nat /\ 1 # 10000 < Qabs (value t) /\ Qabs (value t) < 100)
    \/ ((n_dec t <= 2)%nat /\ 100 <= Qabs (value t) /\ Qabs (value t) < 1000000) ->
  exists text u, predicate_str "<=" (s ++ " <= " ++ str_float t) = Some (s ++ " <= " ++ text) /\ read_number text = Some u /\ u == value t.
Proof.
  intros Hs Ht H. destruct (printed_cut s t Hs Ht) as (txt & u & P & R & _ & X). exists txt, u. split; [exact P|]. split; [exact R|]. apply X.
  destruct H as [[z Z]|H]; [left|right; exact H]. unfold value in Z. pose proof (p10_nz (n_dec t)) as NZ.
  assert (E : inject_Z (n_dig t) == inject_Z ((if n_neg t then - z else z) * 10 ^ Z.of_nat (n_dec t))).
  { rewrite inject_Z_mult. change (inject_Z (10 ^ Z.of_nat (n_dec t))) with (p10 (n_dec t)). destruct (n_neg t); cbn [signed] in Z.
    - rewrite inject_Z_opp, <- Z. field. exact NZ.
    - rewrite <- Z. field. exact NZ. }
  apply (proj1 (inject_Z_injective _ _)) in E. rewrite E. apply Z.mod_mul. pose proof (pow10_pos (n_dec t)). lia.
Qed.

(** * Distinct names *)
Lemma app_head a b c : a ++ b = a ++ c -> b = c.
Proof. induction a; cbn [append]; [auto|]. intros [= H]. auto. Qed.
Lemma app_tail a b c : a ++ c = b ++ c -> a = b.
Proof.
  revert b. induction a as [|x a IH]; intros [|y b] H; [reflexivity| | |].
  - apply (f_equal String.length) in H. cbn [append String.length] in H. rewrite slen_app in H. lia.
  - apply (f_equal String.length) in H. cbn [append String.length] in H. rewrite slen_app in H. lia.
  - cbn [append] in H. injection H as -> H. f_equal. apply IH, H.
Qed.
Lemma escape_head s : match escape s with "" => s = "" | String c _ => c <> "'"%char end.
Proof. destruct s as [|c s]; cbn [escape]; [reflexivity|]. destruct (Ascii.eqb_spec c "'"); [discriminate|assumption]. Qed.
Lemma escape_inj : forall a b, escape a = escape b -> a = b.
Proof.
  induction a as [|x a IH]; intros [|y b] H; [reflexivity| | |].
  - cbn [escape] in H. destruct (Ascii.eqb y "'"); discriminate.
  - cbn [escape] in H. destruct (Ascii.eqb x "'"); discriminate.
  - cbn [escape] in H. destruct (Ascii.eqb_spec x "'") as [->|Nx], (Ascii.eqb_spec y "'") as [->|Ny].
    + injection H as H. f_equal. apply IH, H.
    + injection H as H1 H2. pose proof (escape_head b) as E. rewrite <- H2 in E. congruence.
    + injection H as H1 H2. pose proof (escape_head a) as E. rewrite H2 in E. congruence.
    + injection H as -> H. f_equal. apply IH, H.
Qed.
Lemma shown_same a b : fine a -> fine b -> show_cell a = show_cell b -> cell_eqb a b = true.
Proof.
  intros Ha Hb E. assert (Q : forall s z, "'" ++ s <> str_int z).
  { intros s z X. pose proof (str_int_free "'" z eq_refl eq_refl) as F. rewrite <- X in F. discriminate F. }
  assert (Q' : forall s x, "'" ++ s <> str_float x).
  { intros s x X. pose proof (str_float_free "'" x eq_refl eq_refl eq_refl) as F. rewrite <- X in F. discriminate F. }
  destruct a as [z|x|s], b as [z'|x'|s']; cbn [show_cell fine cell_eqb] in *.
  - destruct (read_str_int z) as (q & A & B), (read_str_int z') as (q' & A' & B'). rewrite E, A' in A. injection A as ->. rewrite B in B'. apply Z.eqb_eq. apply (proj1 (inject_Z_injective _ _)) in B'. exact B'.
  - destruct (read_str_int z) as (q & A & B), (read_str_float x' Hb) as (q' & A' & B'). rewrite E, A' in A. injection A as ->. apply Qeq_bool_iff. rewrite <- B. exact B'.
  - symmetry in E. elim (Q _ _ E).
  - destruct (read_str_float x Ha) as (q & A & B), (read_str_int z') as (q' & A' & B'). rewrite E, A' in A. injection A as ->. apply Qeq_bool_iff. rewrite <- B. exact B'.
  - destruct (read_str_float x Ha) as (q & A & B), (read_str_float x' Hb) as (q' & A' & B'). rewrite E, A' in A. injection A as ->. apply Qeq_bool_iff. rewrite <- B. exact B'.
  - symmetry in E. elim (Q' _ _ E).
  - elim (Q _ _ E).
  - elim (Q' _ _ E).
  - apply app_head, app_tail, escape_inj in E. apply String.eqb_eq. exact E.
Qed.
Lemma cell_eqb_sym a b : cell_eqb a b = cell_eqb b a.
Proof.
  destruct a, b; cbn [cell_eqb]; try reflexivity; try apply Z.eqb_sym; try apply String.eqb_sym;
    match goal with |- Qeq_bool ?a ?b = Qeq_bool ?c ?d => destruct (Qeq_bool a b) eqn:A, (Qeq_bool c d) eqn:B; try reflexivity; exfalso end;
    first [apply Qeq_bool_iff in A; apply Qeq_bool_neq in B; apply B; symmetry; exact A | apply Qeq_bool_iff in B; apply Qeq_bool_neq in A; apply A; symmetry; exact B].
Qed.
Lemma distinct_apart col : forall seen, (forall x y, In x (distinct_cells seen col) -> In y seen -> cell_eqb x y = false).
Proof.
  induction col as [|z col IH]; intros seen x y; cbn [distinct_cells]; [intros []|]. destruct (existsb (cell_eqb z) seen) eqn:E; [apply IH|].
  intros [<-|X] Y.
  - destruct (cell_eqb z y) eqn:F; [|reflexivity]. assert (T : existsb (cell_eqb z) seen = true) by (apply existsb_exists; exists y; auto). congruence.
  - apply (IH (z :: seen)); [exact X|right; exact Y].
Qed.
Lemma distinct_nodup col : forall seen, Forall fine col -> NoDup (map show_cell (distinct_cells seen col)).
Proof.
  induction col as [|z col IH]; intros seen H; cbn [distinct_cells]; [constructor|]. inversion H as [|? ? H1 H2]; subst.
  destruct (existsb (cell_eqb z) seen); [apply IH, H2|]. cbn [map]. constructor; [|apply IH, H2].
  intro I. apply in_map_iff in I. destruct I as (x & E & X). pose proof (distinct_apart col (z :: seen) x z X (or_introl eq_refl)) as F.
  rewrite shown_same in F; [discriminate| |exact H1|exact E]. rewrite Forall_forall in H2. apply H2. eapply distinct_in. exact X.
Qed.
Lemma nodup_map_inj {A B} (f : A -> B) l : (forall x y, f x = f y -> x = y) -> NoDup l -> NoDup (map f l).
Proof.
  intros I. induction 1 as [|x l N _ IH]; cbn; constructor; [|exact IH]. intro X. apply in_map_iff in X. destruct X as (y & E & Y). apply I in E. subst. contradiction.
Qed.
(** C102: the columns that one categorical column gives have different names, and so have the
    columns that different thresholds of one column give. *)
Theorem C102_names n j s col :
  Forall (fun v => match v with Flt x => (0 <= n_dig x)%Z | Txt t => has "<" t = false | Int _ => True end) col ->
  NoDup (map bc_name (cat_columns n j s col)).
Proof.
  intro H. unfold cat_columns. set (vs := distinct_cells [] col). assert (N : NoDup (map show_cell vs)) by (apply distinct_nodup; exact H).
  destruct (_ || _); [constructor|]. destruct (_ || _); [cbn; repeat constructor; intros []|].
  assert (One : forall l, map bc_name (map (fun v => BCol j (TEqual v) (s ++ " == " ++ show_cell v)) l) = map (fun t => s ++ " == " ++ t) (map show_cell l)).
  { intro l. rewrite !map_map. reflexivity. }
  assert (Inj : forall x y, s ++ " == " ++ x = s ++ " == " ++ y -> x = y) by (intros x y E; apply app_head, app_head in E; exact E).
  destruct (_ <? _)%nat.
  - rewrite map_app, One. rewrite <- (firstn_skipn (n - 1) vs), map_app in N. set (l := map show_cell (firstn (n - 1) vs)) in *.
    assert (N1 : NoDup l). { clear - N. induction l as [|x l IH]; [constructor|]. cbn in N. inversion N as [|? ? A B]; subst. constructor; [intro X; apply A, in_app_iff; auto|apply IH, B]. }
    apply (nodup_map_inj _ _ Inj) in N1. cbn [map bc_name].
    eapply Permutation_NoDup; [apply Permutation_cons_append|]. constructor; [|exact N1].
    intro X. apply in_map_iff in X. destruct X as (t & E & _). apply app_head in E. discriminate E.
  - rewrite One. apply nodup_map_inj; assumption.
Qed.
Theorem C102_threshold_names j s ts :
  Forall (fun t => (0 <= n_dig t)%Z) ts -> ForallOrdPairs (fun a b => ~ value a == value b) ts ->
  NoDup (map bc_name (cut_columns j s ts)).
Proof.
  intros H D. unfold cut_columns. rewrite map_map. cbn [bc_name]. induction D as [|t ts A D IH]; cbn [map]; [constructor|].
  inversion H as [|? ? H1 H2]; subst. constructor; [|apply IH, H2].
  intro X. apply in_map_iff in X. destruct X as (t' & E & T). apply app_head, app_head in E. rewrite Forall_forall in A, H2. apply (A t' T).
  destruct (read_str_float t H1) as (q & A1 & A2), (read_str_float t' (H2 t' T)) as (q' & A1' & A2'). rewrite E, A1 in A1'. injection A1' as <-. rewrite <- A2. exact A2'.
Qed.

(** * A table that meets the hypotheses *)
Definition labels0 := [Some "smoker"; Some "town"; Some "age"; Some "side"].
Definition rows0 := [[Int 1; Txt "Delft"; Int 31; Txt "left"]; [Int 0; Txt "'s-Hertogenbosch"; Int 62; Txt "right"]; [Int 1; Txt "Gouda"; Int 45; Txt "left"];
                     [Int 0; Txt "Delft"; Int 18; Txt "right"]; [Int 0; Txt "Leiden"; Int 70; Txt "left"]].
Definition cuts0 := [(2%nat, [Nr false 245 1; Nr false 38 0; Nr false 1234567891 7])].
Example C102_plain : plain labels0 3 rows0 [0%nat] [1%nat; 3%nat] cuts0.
Proof.
  split.
  - intros j J. cbn in J. repeat destruct J as [<-|J]; try contradiction; eexists; split; reflexivity.
  - intros j r J R. cbn in J, R. repeat destruct J as [<-|J]; try contradiction; repeat destruct R as [<-|R]; try contradiction; reflexivity.
  - intros j r s J R E T. cbn in J. destruct J as [<-|[<-|[]]].
    + vm_compute in T. destruct T as [T|T]; discriminate T.
    + cbn in R. repeat destruct R as [<-|R]; try contradiction; injection E as <-; reflexivity.
  - intros j ts t J T. cbn in J. destruct J as [[= <- <-]|[]]. cbn in T. repeat destruct T as [<-|T]; try contradiction; cbn; lia.
Qed.
Example C102_texts : let cols := frame_columns labels0 3 rows0 [0%nat] [1%nat; 3%nat] cuts0 in
  map (printed cols) (seq 0 (List.length cols)) =
  [Some "smoker"; Some "town == 'Delft'"; Some "town == '\'s-Hertogenbosch'"; Some "town in ['Gouda','Leiden']"; Some "side == 'right'";
   Some "age <= 24.5"; Some "age <= 38.0"; Some "age <= 123.46"].
Proof. vm_compute. reflexivity. Qed.

(** * What fails *)
(** A value between the threshold and its printed form: the printed condition does not hold for
    the row, and the row goes where the condition is satisfied; and two different tests of one
    column can be printed alike. *)
Theorem C102_rounded_refuted : exists cols row t, plain [Some "x"] 3 [] [] [] [(0%nat, [Nr false 1234564 7; Nr false 12345641 8])]
  /\ cols = frame_columns [Some "x"] 3 [] [] [] [(0%nat, [Nr false 1234564 7; Nr false 12345641 8])]
  /\ t = Split 0 (Leaf 0) (Leaf 1)
  /\ printed cols 0 = Some "x <= 0.123456" /\ printed cols 1 = Some "x <= 0.123456"
  /\ (forall u, read_number "0.123456" = Some u -> holds row (AtMost 0 u) = false)
  /\ row_predict t (bits cols row) = 1%nat
  /\ bits cols [Flt (Nr false 123456405 9)] = [0%nat; 1%nat].
Proof.
  exists (frame_columns [Some "x"] 3 [] [] [] [(0%nat, [Nr false 1234564 7; Nr false 12345641 8])]), [Flt (Nr false 1234562 7)], (Split 0 (Leaf 0) (Leaf 1)).
  split; [|repeat split].
  - split.
    + intros j [<-|[]]. eexists. split; reflexivity.
    + intros j r [].
    + intros j r s [].
    + intros j ts t [[= <- <-]|[]] T. cbn in T. repeat destruct T as [<-|T]; try contradiction; cbn; lia.
  - intros u [= <-]. reflexivity.
Qed.
(** Printing raises an error: for a binary column that the user named like a comparison with a
    word, for a value with " <= " in it, and for a threshold on a column with " <= " in its name. *)
Theorem C102_raises_refuted :
  (forall a b, has "<" a = false -> has "<" b = false -> (3 <= String.length b)%nat -> parse_float b = None ->
     printed (frame_columns [Some (a ++ " <= " ++ b)] 3 [] [0%nat] [] []) 0 = None)
  /\ printed (frame_columns [Some "age <= high"] 3 [] [0%nat] [] []) 0 = None
  /\ printed (frame_columns [Some "age"] 5 [[Txt "young"]; [Txt "30 <= age"]; [Txt "unknown"]] [] [0%nat] []) 1 = None
  /\ printed (frame_columns [Some "a <= b"] 3 [] [] [] [(0%nat, [Nr false 5 1])]) 0 = None.
Proof.
  split; [|repeat split]. intros a b Ha Hb L P. unfold printed, frame_columns. cbn [map seq List.length flat_map app nth_error binary_name nth bc_name].
  unfold predicate_str. change " <= " with sep. rewrite pieces_sep by assumption. apply Nat.leb_le in L. rewrite L, P. reflexivity.
Qed.
(** When the labels of the columns are no texts the columns are numbered anew in every part:
    the same name stands for different columns of the table. *)
Theorem C102_numbered_refuted : exists cols c c', cols = frame_columns [None; None] 5 [[Txt "a"; Int 1]; [Txt "b"; Int 2]; [Txt "c"; Int 7]] [] [0%nat] [(1%nat, [Nr false 15 1])]
  /\ nth_error cols 0 = Some c /\ nth_error cols 3 = Some c' /\ bc_src c <> bc_src c'
  /\ printed cols 0 = Some "Feature 1 == 'a'" /\ printed cols 3 = Some "Feature 1 <= 1.5".
Proof. do 3 eexists. split; [reflexivity|]. split; [reflexivity|]. split; [reflexivity|]. split; [cbn; lia|]. split; reflexivity. Qed.
(** Quotes in the value of a column with two values are not escaped: what is printed is no
    quoted text. *)
Theorem C102_quote_refuted : exists cols, cols = frame_columns [Some "town"] 5 [[Txt "Delft"]; [Txt "Delft"]; [Txt "'s-Gravenhage"]] [] [0%nat] []
  /\ printed cols 0 = Some "town == ''s-Gravenhage'" /\ forall s, "''s-Gravenhage'" <> "'" ++ escaped s ++ "'".
Proof.
  eexists. split; [reflexivity|]. split; [reflexivity|]. intros s E. rewrite <- escape_spec in E. cbn [append] in E. injection E as E.
  pose proof (escape_head s) as H. destruct (escape s) as [|c r]; [cbn [append] in E; discriminate E|]. cbn [append] in E. injection E as E1 _. congruence.
Qed.

Print Assumptions C102_conditions_partial.
Print Assumptions C102_follow_partial.
Print Assumptions C102_exact.
Print Assumptions C102_names.
Print Assumptions C102_threshold_names.
Print Assumptions C102_rounded_refuted.
Print Assumptions C102_raises_refuted.
Print Assumptions C102_numbered_refuted.
Print Assumptions C102_quote_refuted.
