(** C42: size measures and text forms of trees. *)
From Coq Require Import List String Ascii Arith Bool Lia Decimal DecimalString DecimalNat.
From Verif Require Import Model_Terminal Spec_Tree Model_Text.
Import ListNotations.
Local Open Scope nat_scope.

(** * Sizes *)
Fixpoint leaves (t : tree) : nat := match t with Leaf _ => 1 | Split _ l r => leaves l + leaves r end.
Theorem C42_sizes t : t_depth t = depth t /\ t_nodes t = nodes t /\ n_leaves t = leaves t
  /\ t_depth t <= t_nodes t /\ t_nodes t <= 2 ^ t_depth t - 1.
Proof.
  assert (G : t_depth t = depth t /\ t_nodes t = nodes t /\ n_leaves t = leaves t /\ t_depth t <= t_nodes t /\ t_nodes t + 1 <= 2 ^ t_depth t); [|intuition lia].
  unfold n_leaves. induction t as [l|f l (L1 & L2 & L3 & L4 & L5) r (R1 & R2 & R3 & R4 & R5)]; cbn [t_depth t_nodes depth nodes leaves]; [cbn; lia|].
  assert (2 ^ t_depth l <= 2 ^ Nat.max (t_depth l) (t_depth r)) by (apply Nat.pow_le_mono_r; lia).
  assert (2 ^ t_depth r <= 2 ^ Nat.max (t_depth l) (t_depth r)) by (apply Nat.pow_le_mono_r; lia).
  cbn [Nat.add Nat.pow]. rewrite <- L1, <- R1, <- L2, <- R2. repeat split; lia.
Qed.
(** Both bounds are reached. *)
Example C42_sizes_ex : let full := Split 0 (Split 1 (Leaf 0) (Leaf 1)) (Split 2 (Leaf 1) (Leaf 0)) in
  t_nodes full = 2 ^ t_depth full - 1 /\ n_leaves full = 4 /\ let chain := Split 0 (Leaf 0) (Split 1 (Leaf 1) (Leaf 0)) in t_nodes chain = t_depth chain.
Proof. repeat split. Qed.

(** * Strings *)
Local Open Scope string_scope.
Lemma app_s_assoc a b c : (a ++ b) ++ c = a ++ (b ++ c).
Proof. induction a; cbn; congruence. Qed.
Lemma app_s_inj a b c : a ++ b = a ++ c -> b = c.
Proof. induction a; cbn; [auto|]. intros [= H]. auto. Qed.
Fixpoint every (P : ascii -> Prop) (s : string) : Prop := match s with EmptyString => True | String c s' => P c /\ every P s' end.
Lemma every_app P a b : every P a -> every P b -> every P (a ++ b).
Proof. induction a; cbn; [auto|]. intros [A B] C. auto. Qed.
Lemma cut (P : ascii -> Prop) s1 s2 c1 c2 a b : every P s1 -> every P s2 -> ~ P c1 -> ~ P c2 ->
  s1 ++ String c1 a = s2 ++ String c2 b -> s1 = s2 /\ c1 = c2 /\ a = b.
Proof.
  revert s2. induction s1 as [|x s1 IH]; intros [|y s2]; cbn; intros E1 E2 N1 N2 H.
  - injection H as -> ->. auto.
  - injection H as -> H. tauto.
  - injection H as -> H. tauto.
  - injection H as -> H. destruct (IH s2) as (-> & A & B); try tauto.
Qed.
Definition digit (c : ascii) : Prop := (48 <= nat_of_ascii c <= 57)%nat.
Lemma digits_uint d : every digit (NilEmpty.string_of_uint d).
Proof. induction d; cbn; [exact I|..]; (split; [unfold digit; cbn; lia|exact IHd]). Qed.
Lemma dec_digits n : every digit (dec n).
Proof. apply digits_uint. Qed.
Lemma dec_inj n m : dec n = dec m -> n = m.
Proof.
  unfold dec. intros H. assert (E : Some (Nat.to_uint n) = Some (Nat.to_uint m)) by (rewrite <- !NilEmpty.usu, H; reflexivity).
  injection E as E. rewrite <- (DecimalNat.Unsigned.of_to n), <- (DecimalNat.Unsigned.of_to m), E. reflexivity.
Qed.

(** The text of the C++ side determines the tree. *)
Lemma string_inj t : forall t' a b, tree_string t ++ a = tree_string t' ++ b -> t = t' /\ a = b.
Proof.
  assert (ND : forall c, (nat_of_ascii c < 48 \/ 57 < nat_of_ascii c)%nat -> ~ digit c) by (unfold digit; intros; lia).
  induction t as [l|f l IHl r IHr]; intros [l'|f' l' r'] a b; cbn [tree_string]; rewrite ?app_s_assoc; cbn [append]; rewrite ?app_s_assoc; intros [= H].
  - apply (cut digit) in H; auto using dec_digits; try (apply ND; cbn; lia). destruct H as (E & _ & H). cbn in H. apply dec_inj in E. subst. auto.
  - apply (cut digit) in H; auto using dec_digits; try (apply ND; cbn; lia). destruct H as (_ & H & _). discriminate.
  - apply (cut digit) in H; auto using dec_digits; try (apply ND; cbn; lia). destruct H as (_ & H & _). discriminate.
  - apply (cut digit) in H; auto using dec_digits; try (apply ND; cbn; lia). destruct H as (E & _ & H). apply dec_inj in E. cbn in H.
    rewrite ?app_s_assoc in H. apply IHl in H. destruct H as [-> H]. injection H as H. rewrite ?app_s_assoc in H. apply IHr in H. destruct H as [-> H].
    injection H as H. subst. auto.
Qed.
Theorem C42_string t t' : tree_string t = tree_string t' -> t = t'.
Proof. intros H. apply (string_inj t t' "" ""). now rewrite H. Qed.

(** The printed tree determines the tree, for names that tell features (and labels) apart. *)
Definition one_line (s : string) : Prop := every (fun c => c <> "010"%char) s.
Record clear_names (pname lname : nat -> string) : Prop := {
  cn_pinj : forall f f', pname f = pname f' -> f = f';
  cn_linj : forall l l', lname l = lname l' -> l = l';
  cn_pline : forall f, one_line (pname f);
  cn_lline : forall l, one_line (lname l);
  cn_sep : forall f l, "Label: " ++ lname l <> pname f ++ " not satisfied" }.
Ltac lines := cbn; repeat split; discriminate.
Lemma app_end a b c : a ++ c = b ++ c -> a = b.
Proof.
  intros H. assert (L : String.length a = String.length b).
  { assert (G : forall s u, String.length (s ++ u) = (String.length s + String.length u)%nat) by (induction s; cbn; auto). apply (f_equal String.length) in H. rewrite !G in H. lia. }
  revert b H L. induction a; intros [|]; cbn; try discriminate; auto. intros [= -> H] [= L]. f_equal. auto.
Qed.
Section Print.
Variables pname lname : nat -> string.
Hypothesis CN : clear_names pname lname.
Lemma line_cut s1 s2 a b : one_line s1 -> one_line s2 -> s1 ++ newline ++ a = s2 ++ newline ++ b -> s1 = s2 /\ a = b.
Proof. intros O1 O2 H. apply (cut (fun c => c <> "010"%char)) in H; auto. tauto. Qed.
Lemma print_inj t : forall t' ind a b, print_tree pname lname ind t ++ a = print_tree pname lname ind t' ++ b -> t = t' /\ a = b.
Proof.
  assert (OL : forall l, one_line ("Label: " ++ lname l)) by (intros l; apply every_app; [lines|apply CN]).
  assert (ON : forall f, one_line (pname f ++ " not satisfied")) by (intros f; apply every_app; [apply CN|lines]).
  assert (OS : forall f, one_line (pname f ++ " satisfied")) by (intros f; apply every_app; [apply CN|lines]).
  induction t as [l|f l IHl r IHr]; intros [l'|f' l' r'] ind a b; cbn [print_tree]; rewrite !app_s_assoc; intros H; apply app_s_inj in H.
  - rewrite <- !app_s_assoc in H. rewrite (app_s_assoc _ newline a), (app_s_assoc _ newline b) in H. apply line_cut in H; auto. destruct H as [E ->]. apply app_s_inj in E. apply CN in E. subst; auto.
  - rewrite <- (app_s_assoc "Label: "), <- (app_s_assoc (pname f')) in H. apply line_cut in H; auto. destruct H as [E _]. destruct (cn_sep _ _ CN f' l E).
  - rewrite <- (app_s_assoc "Label: "), <- (app_s_assoc (pname f)) in H. apply line_cut in H; auto. destruct H as [E _]. symmetry in E. destruct (cn_sep _ _ CN f l' E).
  - rewrite <- (app_s_assoc (pname f) " not satisfied"), <- (app_s_assoc (pname f') " not satisfied") in H. apply line_cut in H; auto. destruct H as [E H].
    apply app_end in E. apply CN in E. subst f'. apply IHl in H. destruct H as [-> H]. apply app_s_inj in H.
    do 3 apply app_s_inj in H. apply IHr in H. destruct H as [-> ->]. auto.
Qed.
Theorem C42_print t t' : print_tree pname lname "" t = print_tree pname lname "" t' -> t = t'.
Proof. intros H. apply (print_inj t t' "" "" ""). now rewrite H. Qed.
End Print.
Lemma ends_digit s : every digit s -> forall p, s <> p ++ " not satisfied".
Proof.
  intros D p E. subst s. induction p; cbn in D; [|destruct D; auto]. destruct D as [D _]. unfold digit in D. cbn in D. lia.
Qed.
(** The default names are such names; so are any distinct one-line feature names with numbered labels. *)
Theorem C42_default_names : clear_names default_pname default_lname.
Proof.
  assert (DL : forall n, one_line (dec n)).
  { intros n. unfold one_line. pose proof (dec_digits n) as D. induction (dec n); cbn in *; [exact I|]. destruct D as [D1 D2]. split; [|auto]. intros ->. unfold digit in D1. cbn in D1. lia. }
  split.
  - intros f f' H. apply app_s_inj in H. now apply dec_inj.
  - intros l l'. apply dec_inj.
  - intros f. apply every_app; [lines|apply DL].
  - exact DL.
  - intros f l H. unfold default_pname in H. cbn in H. discriminate.
Qed.
Theorem C42_own_names pname : (forall f f', pname f = pname f' -> f = f') -> (forall f, one_line (pname f)) ->
  clear_names pname default_lname.
Proof.
  intros PI PL. split; auto; try apply C42_default_names. intros f l H.
  assert (G : forall p s, every digit s -> s <> "" -> "Label: " ++ s <> p ++ " not satisfied").
  { clear. intros p s D NE H. assert (L : forall u a b c, every digit a -> a <> "" -> u ++ a = b ++ String c "" -> digit c).
    { clear. intros u a b c D NE. revert u b. induction a as [|x a IH]; intros u b H; [contradiction|]. destruct D as [Dx Da]. destruct a as [|y a].
      - assert (LL : forall s t x y, s ++ String x "" = t ++ String y "" -> x = y).
        { clear. induction s as [|q s IH]; intros [|w t] x y H; cbn in H; injection H; intros; subst; auto; try (destruct s; discriminate); try (destruct t; discriminate). eauto. }
        apply LL in H. subst. exact Dx.
      - apply (IH Da ltac:(discriminate) (u ++ String x "") b). rewrite app_s_assoc. exact H. }
    assert (X : digit "d"%char).
    { apply (L "Label: " s (p ++ " not satisfie") "d"%char D NE). rewrite H, app_s_assoc. reflexivity. }
    unfold digit in X. cbn in X. lia. }
  apply (G (pname f) (dec l) (dec_digits l)); [|exact H]. intros E. pose proof (NilEmpty.usu (Nat.to_uint l)) as U. fold (dec l) in U. rewrite E in U. cbn in U. injection U as U.
  pose proof (DecimalNat.Unsigned.of_to l) as O. rewrite <- U in O. cbn in O. subst l. discriminate.
Qed.
(** Without distinct names it is refuted: threshold names are rounded when printed
    (utils.py:48-57), two thresholds that round alike give two trees with one text. *)
Theorem C42_equal_names_refuted pname lname f f' : f <> f' -> pname f = pname f' ->
  exists t t', t <> t' /\ print_tree pname lname "" t = print_tree pname lname "" t'.
Proof.
  intros N E. exists (Split f (Leaf 0) (Leaf 1)), (Split f' (Leaf 0) (Leaf 1)). split; [congruence|]. cbn [print_tree]. now rewrite E.
Qed.
Example C42_text_ex : let t := Split 12 (Leaf 0) (Split 3 (Leaf 1) (Leaf 0)) in
  tree_string t = "[12,[0],[3,[1],[0]]]" /\
  print_tree default_pname default_lname "" t =
  "Feature 12 not satisfied
|   Label: 0
Feature 12 satisfied
|   Feature 3 not satisfied
|   |   Label: 1
|   Feature 3 satisfied
|   |   Label: 0
".
Proof. split; reflexivity. Qed.

(** * Reading the printed tree
    The text is a list of lines, each indented by as many bars as the depth of its node, and a
    reader who goes down by the indentation arrives at the prediction: among the lines at the
    current depth the first one that is a label, or the first test line that holds for the row,
    after which the reader goes on one level deeper. *)
Inductive pline := PLabel (l : nat) | PTest (f : nat) (satisfied : bool).
Fixpoint bars (d : nat) : string := match d with O => "" | S d' => "|   " ++ bars d' end.
Definition render (pname lname : nat -> string) (x : nat * pline) : string :=
  bars (fst x) ++ match snd x with
                  | PLabel l => "Label: " ++ lname l
                  | PTest f s => pname f ++ (if s then " satisfied" else " not satisfied")
                  end ++ newline.
Definition text (pname lname : nat -> string) (xs : list (nat * pline)) : string :=
  fold_right (fun x s => render pname lname x ++ s) "" xs.
Fixpoint reads (holds : nat -> bool) (d : nat) (xs : list (nat * pline)) : option nat :=
  match xs with
  | [] => None
  | (k, p) :: rest => if (k =? d)%nat then match p with
                                     | PLabel l => Some l
                                     | PTest f s => if Bool.eqb (holds f) s then reads holds (S d) rest else reads holds d rest
                                     end
                      else reads holds d rest
  end.
Fixpoint outline (d : nat) (t : tree) : list (nat * pline) :=
  match t with
  | Leaf l => [(d, PLabel l)]
  | Split f l r => ((d, PTest f false) :: outline (S d) l ++ (d, PTest f true) :: outline (S d) r)%list
  end.
Fixpoint answer (holds : nat -> bool) (t : tree) : nat :=
  match t with Leaf l => l | Split f l r => answer holds (if holds f then r else l) end.
Lemma app_s_nil a : a ++ "" = a.
Proof. induction a; cbn; congruence. Qed.
Lemma bars_end d : bars d ++ "|   " = bars (S d).
Proof. induction d as [|d IH]; [reflexivity|]. cbn [bars] in *. rewrite app_s_assoc, IH. reflexivity. Qed.
Lemma text_app p l xs ys : text p l (xs ++ ys)%list = text p l xs ++ text p l ys.
Proof. unfold text. induction xs as [|x xs IH]; [reflexivity|]. cbn [fold_right List.app]. rewrite IH, app_s_assoc. reflexivity. Qed.
Lemma print_outline p l t : forall d, print_tree p l (bars d) t = text p l (outline d t).
Proof.
  induction t as [k|f a IHa b IHb]; intro d; cbn [print_tree outline].
  - unfold text, render. cbn [fold_right fst snd]. rewrite app_s_nil, !app_s_assoc. reflexivity.
  - rewrite bars_end, IHa, IHb. set (xa := outline (S d) a). set (xb := outline (S d) b).
    change (text p l ((d, PTest f false) :: xa ++ (d, PTest f true) :: xb)%list) with (render p l (d, PTest f false) ++ text p l (xa ++ (d, PTest f true) :: xb)%list).
    rewrite text_app. change (text p l ((d, PTest f true) :: xb)%list) with (render p l (d, PTest f true) ++ text p l xb).
    unfold render. cbn [fst snd]. rewrite !app_s_assoc. reflexivity.
Qed.
Lemma reads_skip holds t : forall d d' rest, (d' < d)%nat -> reads holds d' (outline d t ++ rest)%list = reads holds d' rest.
Proof.
  induction t as [k|f a IHa b IHb]; intros d d' rest H; cbn [outline List.app reads]; destruct (Nat.eqb_spec d d') as [E|_]; try lia; [reflexivity|].
  rewrite <- app_assoc. rewrite IHa by lia. cbn [List.app reads]. destruct (Nat.eqb_spec d d') as [E|_]; try lia. apply IHb. lia.
Qed.
Lemma reads_outline holds t : forall d rest, reads holds d (outline d t ++ rest)%list = Some (answer holds t).
Proof.
  induction t as [k|f a IHa b IHb]; intros d rest; cbn [outline List.app reads answer]; rewrite Nat.eqb_refl; [reflexivity|].
  rewrite <- app_assoc. destruct (holds f) eqn:Eh; cbn [Bool.eqb].
  - rewrite reads_skip by lia. cbn [List.app reads]. rewrite Nat.eqb_refl, Eh. cbn [Bool.eqb]. apply IHb.
  - apply IHa.
Qed.
Theorem C42_print_reads : forall pname lname t, exists xs, print_tree pname lname "" t = text pname lname xs
  /\ forall holds, reads holds 0 xs = Some (answer holds t).
Proof.
  intros p l t. exists (outline 0 t). split; [exact (print_outline p l t 0)|]. intro h. rewrite <- (app_nil_r (outline 0 t)). apply reads_outline.
Qed.
Example C42_print_reads_ex : let t := Split 4 (Leaf 0) (Split 2 (Leaf 1) (Leaf 7)) in
  text default_pname default_lname [(0, PTest 4 false); (1, PLabel 0); (0, PTest 4 true); (1, PTest 2 false); (2, PLabel 1); (1, PTest 2 true); (2, PLabel 7)]
    = print_tree default_pname default_lname "" t
  /\ reads (fun f => f =? 4)%nat 0 (outline 0 t) = Some 1.
Proof. split; reflexivity. Qed.
Print Assumptions C42_print_reads.

(** * The graph *)
Local Open Scope list_scope.
Local Open Scope nat_scope.
(** The subtree reached by a list of answers ([true]: satisfied) and the number of its node. *)
Fixpoint reached (t : tree) (path : list bool) : option tree :=
  match path, t with
  | [], _ => Some t
  | b :: path', Split _ l r => reached (if b then r else l) path'
  | _ :: _, Leaf _ => None
  end.
Fixpoint number (id : nat) (path : list bool) : nat := match path with [] => id | b :: path' => number (id * 2 + if b then 2 else 1) path' end.
Lemma number_inj p : forall q i, number i p = number i q -> p = q.
Proof.
  assert (LB : forall p i, i <= number i p) by (clear p; induction p as [|b p IH]; cbn; intros i; [lia|]; etransitivity; [|apply IH]; destruct b; lia).
  assert (SN : forall p b i, number i (p ++ [b]) = number i p * 2 + if b then 2 else 1) by (clear; induction p as [|c p IH]; intros b i; cbn; [reflexivity|apply IH]).
  assert (G : forall n p q i, List.length p <= n -> number i p = number i q -> List.length p <= List.length q -> exists q0, q = q0 ++ p /\ number i q0 = i).
  { induction n as [|n IH]; intros p0 q i Ln H L.
    - destruct p0; [|cbn in Ln; lia]. exists q. rewrite app_nil_r. auto.
    - destruct p0 as [|b0 p0] using rev_ind; [exists q; rewrite app_nil_r; auto|]. clear IHp0. rewrite app_length in *. cbn in *.
      destruct q as [|c q] using rev_ind; [cbn in L; lia|]. clear IHq. rewrite !SN in H. rewrite app_length in L. cbn in L.
      assert (E : b0 = c /\ number i p0 = number i q) by (destruct b0, c; split; try reflexivity; lia).
      destruct E as [-> E]. destruct (IH p0 q i ltac:(lia) E ltac:(lia)) as (q0 & -> & Hq). exists q0. rewrite app_assoc. auto. }
  assert (Z : forall q i, number i q = i -> q = []).
  { intros [|b q] i H; [reflexivity|]. cbn in H. pose proof (LB q (i * 2 + if b then 2 else 1)). destruct b; lia. }
  intros q i H. destruct (Nat.le_ge_cases (List.length p) (List.length q)) as [L|L].
  - destruct (G _ p q i (le_n _) H L) as (q0 & -> & E). apply Z in E. now subst.
  - destruct (G _ q p i (le_n _) (eq_sym H) L) as (q0 & -> & E). apply Z in E. now subst.
Qed.
Lemma dot_edge_in id x : In x (dot_edge id) <-> 0 < id /\ x = DEdge ((id - 1) / 2) id (id mod 2 =? 0).
Proof.
  unfold dot_edge. destruct (0 <? id) eqn:E; cbn; [apply Nat.ltb_lt in E|apply Nat.ltb_ge in E]; intuition (subst; auto; lia).
Qed.
Lemma edge_of i (b : bool) : dot_edge (i * 2 + if b then 2 else 1) = [DEdge i (i * 2 + if b then 2 else 1) b].
Proof.
  unfold dot_edge. replace (0 <? i * 2 + if b then 2 else 1) with true by (symmetry; apply Nat.ltb_lt; destruct b; lia). destruct b.
  - replace ((i * 2 + 2 - 1) / 2) with i by (replace (i * 2 + 2 - 1) with (1 + i * 2) by lia; rewrite Nat.div_add by lia; reflexivity).
    replace ((i * 2 + 2) mod 2) with 0 by (replace (i * 2 + 2) with (0 + (i + 1) * 2) by lia; rewrite Nat.mod_add by lia; reflexivity). reflexivity.
  - replace ((i * 2 + 1 - 1) / 2) with i by (replace (i * 2 + 1 - 1) with (0 + i * 2) by lia; rewrite Nat.div_add by lia; reflexivity).
    replace ((i * 2 + 1) mod 2) with 1 by (replace (i * 2 + 1) with (1 + i * 2) by lia; rewrite Nat.mod_add by lia; reflexivity). reflexivity.
Qed.
Lemma export_in x t : forall id, In x (export_dot t id) <->
  In x (dot_edge id) \/
  (exists path l, reached t path = Some (Leaf l) /\ x = DLeaf (number id path) l) \/
  (exists path f l r, reached t path = Some (Split f l r) /\ (x = DSplit (number id path) f \/ exists b, x = DEdge (number id path) (number id (path ++ [b])) b)).
Proof.
  assert (NS : forall p b i, number i (p ++ [b]) = number i p * 2 + if b then 2 else 1) by (induction p as [|c p IH]; intros b i; cbn; [reflexivity|apply IH]).
  induction t as [l|f l IHl r IHr]; intros id; cbn [export_dot].
  - cbn [In]. split.
    + intros [<-|H]; [|auto]. right; left. exists [], l. auto.
    + intros [H|[([|b p] & l' & H & ->)|([|b p] & f & l' & r & H & _)]]; auto; cbn in H; try discriminate. injection H as <-. auto.
  - cbn [In]. rewrite !in_app_iff, IHl, IHr.
    rewrite (edge_of id false : dot_edge (id * 2 + 1) = [DEdge id (id * 2 + 1) false]), (edge_of id true : dot_edge (id * 2 + 2) = [DEdge id (id * 2 + 2) true]). cbn [In].
    split.
    + intros [<-|[H|[[[<-|[]]|[(p & l0 & H & ->)|(p & f0 & l0 & r0 & H & H2)]]|[[<-|[]]|[(p & l0 & H & ->)|(p & f0 & l0 & r0 & H & H2)]]]]].
      * right; right. exists [], f, l, r. auto.
      * auto.
      * right; right. exists [], f, l, r. split; [reflexivity|]. right. exists false. reflexivity.
      * right; left. exists (false :: p), l0. auto.
      * right; right. exists (false :: p), f0, l0, r0. auto.
      * right; right. exists [], f, l, r. split; [reflexivity|]. right. exists true. reflexivity.
      * right; left. exists (true :: p), l0. auto.
      * right; right. exists (true :: p), f0, l0, r0. auto.
    + intros [H|[([|b p] & l0 & H & ->)|([|b p] & f0 & l0 & r0 & H & H2)]]; [auto| | | |]; cbn in H.
      * discriminate.
      * destruct b; [right; right; right|right; right; left]; right; left; exists p, l0; auto.
      * injection H as -> -> ->. destruct H2 as [->|([|] & ->)]; [auto| |]; right; right; [right|left]; left; auto.
      * destruct b; [right; right; right|right; right; left]; right; right; exists p, f0, l0, r0; auto.
Qed.
(** The exported graph: its nodes are the nodes of the tree, numbered apart; its edges go from a
    branching node to its two children, the satisfied one to the right. *)
Theorem C42_dot t x : In x (export_dot t 0) <->
  (exists path l, reached t path = Some (Leaf l) /\ x = DLeaf (number 0 path) l) \/
  (exists path f l r, reached t path = Some (Split f l r) /\ (x = DSplit (number 0 path) f \/ exists b, x = DEdge (number 0 path) (number 0 (path ++ [b])) b)).
Proof. rewrite export_in. unfold dot_edge. cbn. tauto. Qed.
Theorem C42_dot_numbers p q : number 0 p = number 0 q -> p = q.
Proof. apply number_inj. Qed.
Theorem C42_dot_determines t t' : (forall x, In x (export_dot t 0) -> In x (export_dot t' 0)) -> t = t'.
Proof.
  intros H. assert (G : forall t t', (forall p l, reached t p = Some (Leaf l) -> reached t' p = Some (Leaf l)) -> (forall p f l r, reached t p = Some (Split f l r) -> exists l' r', reached t' p = Some (Split f l' r')) -> t = t').
  { clear. induction t as [l|f l IHl r IHr]; intros t' A B.
    - specialize (A [] l eq_refl). destruct t'; cbn in A; congruence.
    - destruct (B [] f l r eq_refl) as (l' & r' & E). assert (T : t' = Split f l' r') by (destruct t'; cbn in E; congruence). subst t'. clear E. f_equal.
      + apply IHl; [intros p x Hx; exact (A (false :: p) x Hx)|intros p f0 l0 r0 Hx; exact (B (false :: p) f0 l0 r0 Hx)].
      + apply IHr; [intros p x Hx; exact (A (true :: p) x Hx)|intros p f0 l0 r0 Hx; exact (B (true :: p) f0 l0 r0 Hx)]. }
  apply G.
  - intros p l R. assert (I : In (DLeaf (number 0 p) l) (export_dot t' 0)) by (apply H, C42_dot; left; eauto).
    apply C42_dot in I. destruct I as [(q & l' & R' & E)|(q & f & l' & r' & R' & [E|(b & E)])]; try discriminate. injection E as E ->. apply C42_dot_numbers in E. now subst.
  - intros p f l r R. assert (I : In (DSplit (number 0 p) f) (export_dot t' 0)) by (apply H, C42_dot; right; eauto 10).
    apply C42_dot in I. destruct I as [(q & l' & R' & E)|(q & f' & l' & r' & R' & [E|(b & E)])]; try discriminate. injection E as E ->. apply C42_dot_numbers in E. subst. eauto.
Qed.
Example C42_dot_ex : export_dot (Split 4 (Leaf 0) (Split 2 (Leaf 1) (Leaf 0))) 0 =
  [DSplit 0 4; DLeaf 1 0; DEdge 0 1 false; DSplit 2 2; DEdge 0 2 true; DLeaf 5 1; DEdge 2 5 false; DLeaf 6 0; DEdge 2 6 true].
Proof. reflexivity. Qed.

Print Assumptions C42_sizes.
Print Assumptions C42_string.
Print Assumptions C42_print.
Print Assumptions C42_default_names.
Print Assumptions C42_own_names.
Print Assumptions C42_equal_names_refuted.
Print Assumptions C42_dot.
Print Assumptions C42_dot_numbers.
Print Assumptions C42_dot_determines.
