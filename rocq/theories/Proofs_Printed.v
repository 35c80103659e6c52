(** Texts of numbers and names. *)
From Coq Require Import List String Ascii ZArith QArith Qabs Bool Arith Lia Lqa.
From Verif Require Import Spec_Printed Model_Printed.
Import ListNotations.
Local Open Scope string_scope.

(** * Texts *)
Lemma sapp_assoc a b c : (a ++ b) ++ c = a ++ (b ++ c).
Proof. induction a; cbn; congruence. Qed.
Lemma sapp_nil a : a ++ "" = a.
Proof. induction a; cbn; congruence. Qed.
Lemma slen_app a b : String.length (a ++ b) = (String.length a + String.length b)%nat.
Proof. induction a; cbn; congruence. Qed.
Lemma has_app c a b : has c (a ++ b) = has c a || has c b.
Proof. induction a; cbn; [reflexivity|]. rewrite IHa. apply orb_assoc. Qed.

Lemma digit_char_ok d : (0 <= d < 10)%Z -> digit_of (digit_char d) = Some d.
Proof.
  intro H. assert (d = 0 \/ d = 1 \/ d = 2 \/ d = 3 \/ d = 4 \/ d = 5 \/ d = 6 \/ d = 7 \/ d = 8 \/ d = 9)%Z by lia.
  repeat match goal with H : _ \/ _ |- _ => destruct H end; subst; reflexivity.
Qed.
Local Opaque digit_char.
Lemma mod10 n : (0 <= n mod 10 < 10)%Z.
Proof. apply Z.mod_pos_bound. lia. Qed.
Lemma read_app a : forall acc b, read_digits acc (a ++ b) = match read_digits acc a with Some x => read_digits x b | None => None end.
Proof. induction a as [|c a IH]; intros acc b; cbn; [reflexivity|]. destruct (digit_of c); [apply IH|reflexivity]. Qed.
Lemma digits_len k : forall n, String.length (digits k n) = k.
Proof. induction k as [|k IH]; intro n; cbn; [reflexivity|]. rewrite slen_app, IH. cbn. lia. Qed.
Lemma pow10S k : (10 ^ Z.of_nat (S k) = 10 * 10 ^ Z.of_nat k)%Z.
Proof. rewrite Nat2Z.inj_succ, Z.pow_succ_r by lia. reflexivity. Qed.
Lemma pow10_pos k : (0 < 10 ^ Z.of_nat k)%Z.
Proof. apply Z.pow_pos_nonneg; lia. Qed.
Lemma read_digits_k k : forall n acc, read_digits acc (digits k n) = Some (acc * 10 ^ Z.of_nat k + n mod 10 ^ Z.of_nat k)%Z.
Proof.
  induction k as [|k IH]; intros n acc.
  - cbn. rewrite Z.mod_1_r. f_equal. lia.
  - cbn [digits]. rewrite read_app, IH. cbn [read_digits]. rewrite digit_char_ok by apply mod10. cbn [read_digits].
    rewrite pow10S. rewrite Z.rem_mul_r by (pose proof (pow10_pos k); lia). f_equal. lia.
Qed.
Lemma digits_free c k : digit_of c = None -> forall n, has c (digits k n) = false.
Proof.
  intro H. induction k as [|k IH]; intro n; cbn; [reflexivity|]. rewrite has_app, IH. cbn. rewrite orb_false_r.
  destruct (Ascii.eqb_spec (digit_char (n mod 10)) c) as [E|E]; [|reflexivity].
  rewrite <- E, digit_char_ok in H by apply mod10. discriminate.
Qed.
Lemma ndig_pos f n : (1 <= ndig f n)%nat.
Proof. destruct f; cbn; [lia|]. destruct (n <? 10)%Z; lia. Qed.
Lemma ndig_bound f : forall n, (0 <= n < 10 ^ Z.of_nat f)%Z -> (n < 10 ^ Z.of_nat (ndig f n))%Z /\ (n = 0 \/ 10 ^ Z.of_nat (ndig f n - 1) <= n)%Z.
Proof.
  induction f as [|f IH]; intros n H.
  - cbn in H. assert (n = 0)%Z by lia. subst. cbn. lia.
  - cbn [ndig]. destruct (Z.ltb_spec n 10) as [L|L].
    + cbn. lia.
    + assert (B : (0 <= n / 10 < 10 ^ Z.of_nat f)%Z).
      { split; [apply Z.div_pos; lia|]. apply Z.div_lt_upper_bound; [lia|]. rewrite <- pow10S. lia. }
      destruct (IH _ B) as [B1 B2]. split.
      * rewrite pow10S. pose proof (Z.div_mod n 10 ltac:(lia)). pose proof (mod10 n). lia.
      * right. replace (S (ndig f (n / 10)) - 1)%nat with (S (ndig f (n / 10) - 1)) by (pose proof (ndig_pos f (n / 10)); lia).
        rewrite pow10S. destruct B2 as [B2|B2].
        -- pose proof (Z.div_str_pos n 10 ltac:(lia)). lia.
        -- pose proof (Z.div_mod n 10 ltac:(lia)). pose proof (mod10 n). lia.
Qed.
Lemma num_digits_bound n : (0 <= n)%Z -> (n < 10 ^ Z.of_nat (num_digits n))%Z /\ (n = 0 \/ 10 ^ Z.of_nat (num_digits n - 1) <= n)%Z.
Proof.
  intro H. apply ndig_bound. split; [exact H|]. destruct (Z.eq_dec n 0) as [->|N]; [reflexivity|].
  pose proof (Z.log2_spec n ltac:(lia)) as [_ L]. pose proof (Z.log2_nonneg n).
  rewrite Nat2Z.inj_succ, Z2Nat.id by lia. eapply Z.lt_le_trans; [exact L|]. apply Z.pow_le_mono_l. lia.
Qed.
Lemma num_digits_pos n : (1 <= num_digits n)%nat.
Proof. apply ndig_pos. Qed.
Lemma read_show n acc : (0 <= n)%Z -> read_digits acc (show n) = Some (acc * 10 ^ Z.of_nat (num_digits n) + n)%Z.
Proof.
  intro H. unfold show. rewrite read_digits_k. rewrite Z.mod_small; [reflexivity|]. pose proof (num_digits_bound n H). lia.
Qed.
Lemma read_show0 n : (0 <= n)%Z -> read_digits 0 (show n) = Some n.
Proof. intro H. rewrite read_show by exact H. f_equal. Qed.
Lemma show_free c n : digit_of c = None -> has c (show n) = false.
Proof. intro H. apply digits_free. exact H. Qed.
Definition heads (s : string) : Prop := match s with "" => False | String c _ => digit_of c <> None end.
Lemma heads_app a b : heads a -> heads (a ++ b).
Proof. destruct a; cbn; tauto. Qed.
Lemma heads_digits k n : heads (digits (S k) n).
Proof.
  revert n. induction k as [|k IH]; intro n.
  - cbn [digits append heads]. rewrite digit_char_ok by apply mod10. discriminate.
  - change (digits (S (S k)) n) with (digits (S k) (n / 10) ++ String (digit_char (n mod 10)) ""). apply heads_app, IH.
Qed.
Lemma heads_show n : heads (show n).
Proof. unfold show. pose proof (num_digits_pos n). destruct (num_digits n); [lia|]. apply heads_digits. Qed.
Lemma show_ne n : show n <> "".
Proof. intro E. pose proof (heads_show n) as H. rewrite E in H. exact H. Qed.

Lemma cut_found c a b : has c a = false -> Spec_Printed.cut c (a ++ String c b) = (a, Some b).
Proof.
  induction a as [|x a IH]; cbn.
  - intros _. rewrite Ascii.eqb_refl. reflexivity.
  - intro H. apply orb_false_iff in H. destruct H as [H1 H2]. rewrite H1, (IH H2). reflexivity.
Qed.
Lemma cut_none c a : has c a = false -> Spec_Printed.cut c a = (a, None).
Proof.
  induction a as [|x a IH]; cbn; [reflexivity|]. intro H. apply orb_false_iff in H. destruct H as [H1 H2]. rewrite H1, (IH H2). reflexivity.
Qed.
Lemma sign_minus b s : heads s -> read_sign (minus b s) = (b, s).
Proof.
  intro H. destruct b; [reflexivity|]. cbn [minus]. destruct s as [|c s]; [contradiction|]. cbn [heads read_sign] in *.
  destruct (Ascii.eqb_spec c "-") as [->|_]; [exfalso; apply H; reflexivity|].
  destruct (Ascii.eqb_spec c "+") as [->|_]; [exfalso; apply H; reflexivity|]. reflexivity.
Qed.

(** * Powers and signs *)
Lemma p10_pos k : (0 < p10 k)%Q.
Proof. unfold p10. change 0%Q with (inject_Z 0). rewrite <- Zlt_Qlt. apply pow10_pos. Qed.
Lemma p10_nz k : ~ (p10 k == 0)%Q.
Proof. pose proof (p10_pos k). lra. Qed.
Lemma p10_add a b : (p10 (a + b) == p10 a * p10 b)%Q.
Proof. unfold p10. rewrite <- inject_Z_mult, Nat2Z.inj_add, Z.pow_add_r by lia. reflexivity. Qed.
Lemma signed_eq b x y : (x == y)%Q -> (signed b x == signed b y)%Q.
Proof. intro H. destruct b; cbn; rewrite H; reflexivity. Qed.

(** * Reading what was written *)
Lemma unsigned_point i k n : (0 <= i)%Z -> (n mod 10 ^ Z.of_nat k + i * 10 ^ Z.of_nat k = n)%Z ->
  read_unsigned (show i ++ "." ++ digits k n) = Some (inject_Z n / p10 k)%Q.
Proof.
  intros Hi E. unfold read_unsigned. pose proof (show_ne i) as NE.
  destruct (show i ++ "." ++ digits k n) eqn:F; [destruct (show i); [congruence|discriminate F]|]. rewrite <- F. clear F.
  change ("." ++ digits k n) with (String "." (digits k n)). rewrite cut_found by (apply show_free; reflexivity).
  destruct (Nat.eqb_spec (String.length (show i) + String.length (digits k n)) 0) as [L|_].
  { destruct (show i); [congruence|cbn in L; lia]. }
  rewrite read_app, read_show0 by exact Hi. rewrite read_digits_k, digits_len. do 3 f_equal. lia.
Qed.
Lemma unsigned_int i : (0 <= i)%Z -> read_unsigned (show i) = Some (inject_Z i).
Proof.
  intros Hi. unfold read_unsigned. pose proof (show_ne i) as NE. destruct (show i) eqn:F; [congruence|]. rewrite <- F.
  rewrite cut_none by (apply show_free; reflexivity). rewrite read_show0 by exact Hi. reflexivity.
Qed.
Lemma read_plain b s q : heads s -> has "e" s = false -> read_unsigned s = Some q -> read_number (minus b s) = Some (signed b q).
Proof. intros H1 H2 H3. unfold read_number. rewrite sign_minus by exact H1. rewrite cut_none by exact H2. rewrite H3. reflexivity. Qed.
Lemma point_free c k n : digit_of c = None -> Ascii.eqb "." c = false -> has c (point k n) = false.
Proof. intros H1 H2. unfold point. rewrite !has_app. rewrite show_free, digits_free by exact H1. cbn [has]. rewrite H2. reflexivity. Qed.
Lemma split10 n k : (n mod 10 ^ Z.of_nat k + n / 10 ^ Z.of_nat k * 10 ^ Z.of_nat k = n)%Z.
Proof. pose proof (Z.div_mod n (10 ^ Z.of_nat k) ltac:(pose proof (pow10_pos k); lia)). lia. Qed.
Lemma div_nonneg n k : (0 <= n)%Z -> (0 <= n / 10 ^ Z.of_nat k)%Z.
Proof. intro H. apply Z.div_pos; [exact H|apply pow10_pos]. Qed.
Lemma unsigned_whole i : (0 <= i)%Z -> read_unsigned (show i ++ ".0") = Some (inject_Z (i * 10) / p10 1)%Q.
Proof.
  intro H. rewrite <- (unsigned_point i 1 (i * 10)); [|exact H|].
  - f_equal. cbn [digits]. rewrite Z.mod_mul by lia. reflexivity.
  - change (10 ^ Z.of_nat 1)%Z with 10%Z. rewrite Z.mod_mul by lia. lia.
Qed.
Lemma whole_value i : (inject_Z (i * 10) / p10 1 == inject_Z i)%Q.
Proof. change (p10 1) with 10%Q. rewrite inject_Z_mult. change (inject_Z 10) with 10%Q. field. Qed.
Lemma read_whole b i : (0 <= i)%Z -> read_number (minus b (show i ++ ".0")) = Some (signed b (inject_Z (i * 10) / p10 1)%Q).
Proof.
  intro H. apply read_plain.
  - apply heads_app, heads_show.
  - rewrite has_app, show_free by reflexivity. reflexivity.
  - apply unsigned_whole. exact H.
Qed.
Lemma read_point b k n : (0 <= n)%Z -> read_number (minus b (point k n)) = Some (signed b (inject_Z n / p10 k)%Q).
Proof.
  intro H. apply read_plain.
  - apply heads_app, heads_show.
  - apply point_free; reflexivity.
  - apply unsigned_point; [apply div_nonneg; exact H|apply split10].
Qed.
Lemma read_str_float x : (0 <= n_dig x)%Z -> exists q, read_number (str_float x) = Some q /\ (q == value x)%Q.
Proof.
  intro H. unfold str_float, value. destruct (n_dec x) as [|k].
  - eexists. split; [apply read_whole; exact H|]. apply signed_eq. rewrite whole_value. unfold p10. cbn. field.
  - eexists. split; [apply read_point; exact H|]. reflexivity.
Qed.
Lemma read_str_int z : exists q, read_number (str_int z) = Some q /\ (q == inject_Z z)%Q.
Proof.
  unfold str_int. eexists. split.
  - apply read_plain; [apply heads_show|apply show_free; reflexivity|apply unsigned_int; lia].
  - destruct (Z.ltb_spec z 0); cbn [signed]; [rewrite <- inject_Z_opp|]; replace z with (if (z <? 0)%Z then - Z.abs z else Z.abs z)%Z at 2 by (destruct (Z.ltb_spec z 0); lia);
      destruct (Z.ltb_spec z 0); try lia; reflexivity.
Qed.

(** * Rounding *)
Lemma round_near a b : (0 < b)%Z -> (2 * a - b <= 2 * (round_div a b * b) <= 2 * a + b)%Z.
Proof.
  intro H. unfold round_div. pose proof (Z.div_mod a b ltac:(lia)). pose proof (Z.mod_pos_bound a b H).
  destruct (Z.ltb_spec (2 * (a mod b)) b); [nia|]. destruct (Z.ltb_spec b (2 * (a mod b))); [nia|]. destruct (Z.even _); nia.
Qed.
Lemma round_nonneg a b : (0 <= a)%Z -> (0 < b)%Z -> (0 <= round_div a b)%Z.
Proof.
  intros Ha Hb. unfold round_div. pose proof (Z.div_pos a b Ha Hb). repeat match goal with |- context [if ?c then _ else _] => destruct c end; lia.
Qed.
Lemma round_exact c b : (0 < b)%Z -> round_div (c * b) b = c.
Proof.
  intro H. unfold round_div. rewrite Z.mod_mul, Z.div_mul by lia. destruct (Z.ltb_spec (2 * 0) b); [reflexivity|lia].
Qed.
Lemma round_q a b : (0 < b)%Z ->
  (inject_Z (round_div a b) - (1 # 2) <= inject_Z a / inject_Z b)%Q /\ (inject_Z a / inject_Z b <= inject_Z (round_div a b) + (1 # 2))%Q.
Proof.
  intro H. pose proof (round_near a b H) as [N1 N2]. set (r := round_div a b) in *.
  assert (B : (0 < inject_Z b)%Q) by (change 0%Q with (inject_Z 0); rewrite <- Zlt_Qlt; exact H).
  rewrite Zle_Qle in N1, N2. unfold Z.sub in N1. rewrite ?inject_Z_plus, ?inject_Z_opp, ?inject_Z_mult in N1, N2. change (inject_Z 2) with 2%Q in *.
  rewrite inject_Z_opp in N1.
  assert (E1 : ((inject_Z r - (1 # 2)) * inject_Z b == inject_Z r * inject_Z b - (1 # 2) * inject_Z b)%Q) by ring.
  assert (E2 : ((inject_Z r + (1 # 2)) * inject_Z b == inject_Z r * inject_Z b + (1 # 2) * inject_Z b)%Q) by ring.
  set (p := (inject_Z r * inject_Z b)%Q) in *.
  split; [apply Qle_shift_div_l|apply Qle_shift_div_r]; try exact B; rewrite ?E1, ?E2; lra.
Qed.

(** * Stripped zeros *)
Fixpoint zeros (j : nat) : string := match j with O => "" | S j => String "0" (zeros j) end.
Lemma zeros_len j : String.length (zeros j) = j.
Proof. induction j; cbn; congruence. Qed.
Lemma read_zeros j : forall x, read_digits x (zeros j) = Some (x * 10 ^ Z.of_nat j)%Z.
Proof.
  induction j as [|j IH]; intro x; [cbn; f_equal; lia|]. cbn [zeros read_digits]. change (digit_of "0") with (Some 0%Z). cbv iota beta. rewrite IH, pow10S. f_equal. lia.
Qed.
Lemma rstrip_zeros f : exists j, f = rstrip "0" f ++ zeros j.
Proof.
  induction f as [|c f [j IH]]; [exists 0%nat; reflexivity|]. cbn [rstrip]. destruct (rstrip "0" f) as [|a r] eqn:E.
  - destruct (Ascii.eqb_spec c "0") as [->|_].
    + exists (S j). cbn in IH |- *. rewrite <- IH. reflexivity.
    + exists j. cbn in IH |- *. rewrite <- IH. reflexivity.
  - exists j. cbn in IH |- *. rewrite IH at 1. reflexivity.
Qed.
Lemma rstrip_stop c d a b : Ascii.eqb d c = false -> rstrip c (a ++ String d b) = a ++ String d (rstrip c b).
Proof.
  intro H. induction a as [|x a IH]; cbn [append rstrip].
  - destruct (rstrip c b); [rewrite H|]; reflexivity.
  - rewrite IH. destruct a; reflexivity.
Qed.
Lemma rstrip_free c s : has c s = false -> rstrip c s = s.
Proof.
  induction s as [|a s IH]; cbn [has rstrip]; [reflexivity|]. intro H. apply orb_false_iff in H. destruct H as [H1 H2].
  rewrite (IH H2). destruct s; [rewrite H1|]; reflexivity.
Qed.
Lemma rstrip_tail c a g : has c g = false -> g <> "" -> rstrip c (a ++ g) = a ++ g.
Proof.
  intros H N. induction a as [|x a IH]; cbn [append rstrip]; [apply rstrip_free; exact H|]. rewrite IH.
  destruct a; [destruct g; [congruence|reflexivity]|reflexivity].
Qed.
Lemma stripped_free c f : has c f = false -> has c (rstrip "0" f) = false.
Proof. destruct (rstrip_zeros f) as [j E]. intro H. rewrite E, has_app in H. apply orb_false_iff in H. apply H. Qed.
Lemma strip_point k n : (0 <= n)%Z -> let s := rstrip "." (rstrip "0" (point k n)) in
  heads s /\ has "e" s = false /\ exists q, read_unsigned s = Some q /\ (q == inject_Z n / p10 k)%Q.
Proof.
  intro H. unfold point. set (i := (n / 10 ^ Z.of_nat k)%Z). assert (Hi : (0 <= i)%Z) by (apply div_nonneg; exact H).
  change ("." ++ digits k n) with (String "." (digits k n)). rewrite rstrip_stop by reflexivity.
  destruct (rstrip_zeros (digits k n)) as [j E]. pose proof (stripped_free "." (digits k n) (digits_free "." k eq_refl n)) as F.
  pose proof (stripped_free "e" (digits k n) (digits_free "e" k eq_refl n)) as Fe.
  assert (R : read_digits 0 (show i ++ digits k n) = Some n).
  { rewrite read_app, read_show0 by exact Hi. rewrite read_digits_k. f_equal. pose proof (split10 n k). unfold i. lia. }
  assert (L : k = (String.length (rstrip "0" (digits k n)) + j)%nat).
  { rewrite <- (digits_len k n) at 1. rewrite E at 1. rewrite slen_app, zeros_len. reflexivity. }
  set (g := rstrip "0" (digits k n)) in *. rewrite E in R. rewrite <- sapp_assoc, read_app in R.
  destruct (read_digits 0 (show i ++ g)) as [m|] eqn:M; [|discriminate R]. rewrite read_zeros in R. injection R as R.
  assert (V : (inject_Z m / p10 (String.length g) == inject_Z n / p10 k)%Q).
  { rewrite <- R, L, p10_add, inject_Z_mult. change (inject_Z (10 ^ Z.of_nat j)) with (p10 j). field. split; apply p10_nz. }
  clearbody g. destruct g as [|c g].
  - change (String "." "") with ("." : string). cbn in L.
    assert (S : rstrip "." (show i ++ ".") = show i).
    { clear. assert (F : has "." (show i) = false) by (apply show_free; reflexivity). induction (show i) as [|a s IH]; [reflexivity|]. cbn [append rstrip has] in *.
      apply orb_false_iff in F. destruct F as [F1 F2]. rewrite (IH F2). destruct s; [rewrite F1|]; reflexivity. }
    rewrite S. split; [apply heads_show|]. split; [apply show_free; reflexivity|]. exists (inject_Z i). split; [apply unsigned_int; exact Hi|].
    rewrite <- V. rewrite sapp_nil, read_show0 in M by exact Hi. injection M as <-. cbn. unfold p10. cbn. field.
  - change (show i ++ String "." (String c g)) with (show i ++ ("." ++ String c g)). rewrite <- sapp_assoc, rstrip_tail by (exact F || discriminate). rewrite sapp_assoc.
    split; [apply heads_app, heads_show|]. split; [rewrite !has_app, show_free by reflexivity; exact Fe|].
    exists (inject_Z m / p10 (String.length (String c g)))%Q. split; [|exact V]. unfold read_unsigned. pose proof (show_ne i) as NE.
    destruct (show i ++ "." ++ String c g) eqn:D; [destruct (show i); [congruence|discriminate D]|]. rewrite <- D. clear D.
    change ("." ++ String c g) with (String "." (String c g)). rewrite cut_found by (apply show_free; reflexivity).
    destruct (Nat.eqb_spec (String.length (show i) + String.length (String c g)) 0) as [Z0|_]; [cbn in Z0; lia|]. rewrite M. reflexivity.
Qed.
Lemma read_fixed k x : (0 <= n_dig x)%Z -> exists q, read_number (fixed k x) = Some (signed (n_neg x) q)
  /\ (q == inject_Z (round_div (n_dig x * 10 ^ Z.of_nat k) (10 ^ Z.of_nat (n_dec x))) / p10 k)%Q.
Proof.
  intro H. unfold fixed. set (r := round_div _ _).
  assert (Hr : (0 <= r)%Z) by (apply round_nonneg; [pose proof (pow10_pos k); nia|apply pow10_pos]).
  destruct (strip_point k r Hr) as (A & B & q & C & D). exists q. split; [apply read_plain; assumption|exact D].
Qed.

(** * Reading the formatted number *)
Lemma value_abs x : (0 <= n_dig x)%Z -> (Qabs (value x) == inject_Z (n_dig x) / p10 (n_dec x))%Q.
Proof.
  intro H. assert (P : (0 <= inject_Z (n_dig x) / p10 (n_dec x))%Q).
  { apply Qle_shift_div_l; [apply p10_pos|]. rewrite Qmult_0_l. change 0%Q with (inject_Z 0). rewrite <- Zle_Qle. exact H. }
  unfold value. destruct (n_neg x); cbn [signed]; [rewrite Qabs_opp|]; apply Qabs_pos; exact P.
Qed.
Lemma signed_diff b x y d : (- d <= x - y)%Q /\ (x - y <= d)%Q -> (Qabs (signed b x - signed b y) <= d)%Q.
Proof. intros [A B]. apply Qabs_Qle_condition. destruct b; cbn [signed]; split; lra. Qed.
Lemma fixed_near k x : (0 <= n_dig x)%Z -> exists q, read_number (fixed k x) = Some (signed (n_neg x) q)
  /\ (q * p10 k - (1 # 2) <= inject_Z (n_dig x) / p10 (n_dec x) * p10 k)%Q /\ (inject_Z (n_dig x) / p10 (n_dec x) * p10 k <= q * p10 k + (1 # 2))%Q
  /\ ((n_dec x <= k)%nat -> (q == inject_Z (n_dig x) / p10 (n_dec x))%Q).
Proof.
  intro H. destruct (read_fixed k x H) as (q & A & B). exists q. split; [exact A|].
  pose proof (round_q (n_dig x * 10 ^ Z.of_nat k) (10 ^ Z.of_nat (n_dec x)) (pow10_pos _)) as [N1 N2].
  rewrite inject_Z_mult in N1, N2. change (inject_Z (10 ^ Z.of_nat k)) with (p10 k) in N1, N2. change (inject_Z (10 ^ Z.of_nat (n_dec x))) with (p10 (n_dec x)) in N1, N2.
  assert (E : (inject_Z (n_dig x) * p10 k / p10 (n_dec x) == inject_Z (n_dig x) / p10 (n_dec x) * p10 k)%Q) by (field; apply p10_nz).
  rewrite E in N1, N2.
  assert (Q1 : (q * p10 k == inject_Z (round_div (n_dig x * 10 ^ Z.of_nat k) (10 ^ Z.of_nat (n_dec x))))%Q) by (rewrite B; field; apply p10_nz).
  rewrite Q1. split; [exact N1|]. split; [exact N2|]. intro L. rewrite B.
  replace (n_dig x * 10 ^ Z.of_nat k)%Z with (n_dig x * 10 ^ Z.of_nat (k - n_dec x) * 10 ^ Z.of_nat (n_dec x))%Z.
  - rewrite round_exact by apply pow10_pos. rewrite inject_Z_mult. change (inject_Z (10 ^ Z.of_nat (k - n_dec x))) with (p10 (k - n_dec x)).
    replace k with (k - n_dec x + n_dec x)%nat at 2 by lia. rewrite p10_add. field. split; apply p10_nz.
  - rewrite <- Z.mul_assoc, <- Z.pow_add_r by lia. do 2 f_equal. lia.
Qed.
Lemma read_exp m e b : (0 <= m)%Z -> read_number (minus b (point 2 m ++ show_exp e)) =
  Some (signed b (if (e <? 0)%Z then inject_Z m / p10 2 / p10 (Z.to_nat (Z.abs e)) else inject_Z m / p10 2 * p10 (Z.to_nat (Z.abs e)))%Q).
Proof.
  intro H. unfold read_number. rewrite sign_minus by apply heads_app, heads_app, heads_show.
  set (d := if (Z.abs e <? 10)%Z then digits 2 (Z.abs e) else show (Z.abs e)).
  assert (S : show_exp e = String "e" (String (if (e <? 0)%Z then "-" else "+") d)) by (unfold show_exp; fold d; destruct (e <? 0)%Z; reflexivity).
  rewrite S, cut_found by (apply point_free; reflexivity).
  unfold point at 1. rewrite unsigned_point by (apply div_nonneg || apply split10; exact H).
  assert (R : read_digits 0 d = Some (Z.abs e)).
  { unfold d. destruct (Z.ltb_spec (Z.abs e) 10); [|apply read_show0; lia]. rewrite read_digits_k. change (10 ^ Z.of_nat 2)%Z with 100%Z. rewrite Z.mod_small by lia. reflexivity. }
  assert (N : d <> "").
  { unfold d. destruct (Z.abs e <? 10)%Z; [|apply show_ne]. intro E. apply (f_equal String.length) in E. rewrite digits_len in E. discriminate. }
  destruct (e <? 0)%Z; cbn [read_sign Ascii.eqb Bool.eqb]; destruct d as [|c d]; try congruence; rewrite R; reflexivity.
Qed.
Lemma exp_scale q a d : ((if (Z.of_nat a - Z.of_nat d <? 0)%Z then q / p10 (Z.to_nat (Z.abs (Z.of_nat a - Z.of_nat d))) else q * p10 (Z.to_nat (Z.abs (Z.of_nat a - Z.of_nat d)))) == q * (p10 a / p10 d))%Q.
Proof.
  destruct (Z.ltb_spec (Z.of_nat a - Z.of_nat d) 0).
  - set (k := Z.to_nat _). replace d with (a + k)%nat at 1 by (unfold k; lia). rewrite p10_add. field. split; apply p10_nz.
  - set (k := Z.to_nat _). replace a with (d + k)%nat by (unfold k; lia). rewrite p10_add. field. apply p10_nz.
Qed.
Lemma scientific_near x : (0 < n_dig x)%Z -> exists q, read_number (scientific x) = Some (signed (n_neg x) q)
  /\ (- (inject_Z (n_dig x) / p10 (n_dec x) * (1 # 200)) <= q - inject_Z (n_dig x) / p10 (n_dec x))%Q /\ (q - inject_Z (n_dig x) / p10 (n_dec x) <= inject_Z (n_dig x) / p10 (n_dec x) * (1 # 200))%Q.
Proof.
  intro H. unfold scientific. set (nd := num_digits (n_dig x)). set (m := round_div _ _).
  pose proof (num_digits_bound (n_dig x) ltac:(lia)) as [_ NB]. fold nd in NB. destruct NB as [NB|NB]; [lia|].
  assert (Hnd : (1 <= nd)%nat) by apply num_digits_pos.
  assert (PE : (10 ^ (Z.of_nat nd - 1) = 10 ^ Z.of_nat (nd - 1))%Z) by (f_equal; lia).
  pose proof (round_q (n_dig x * 100) (10 ^ (Z.of_nat nd - 1)) ltac:(rewrite PE; apply pow10_pos)) as [N1 N2]. fold m in N1, N2.
  assert (Hm : (0 <= m)%Z) by (apply round_nonneg; [lia|rewrite PE; apply pow10_pos]).
  rewrite PE in N1, N2. change (inject_Z (10 ^ Z.of_nat (nd - 1))) with (p10 (nd - 1)) in N1, N2.
  set (A := p10 (nd - 1)) in *. set (D := p10 (n_dec x)). assert (PA : (0 < A)%Q) by apply p10_pos. assert (PD : (0 < D)%Q) by apply p10_pos.
  set (w := (inject_Z (n_dig x) / A)%Q).
  assert (W : (1 <= w)%Q).
  { unfold w. apply Qle_shift_div_l; [exact PA|]. rewrite Qmult_1_l. unfold A, p10. rewrite <- Zle_Qle. exact NB. }
  assert (E : (inject_Z (n_dig x * 100) / A == 100 * w)%Q) by (unfold w; rewrite inject_Z_mult; change (inject_Z 100) with 100%Q; field; lra).
  rewrite E in N1, N2.
  assert (V : (inject_Z (n_dig x) / D == w * (A / D))%Q) by (unfold w; field; split; lra).
  assert (PS : (0 < A / D)%Q) by (apply Qlt_shift_div_l; [exact PD|lra]).
  assert (Goal : exists q, (q == inject_Z m * (1 # 100) * (A / D))%Q /\ read_number (minus (n_neg x)
      (if (m =? 1000)%Z then point 2 100 ++ show_exp (Z.of_nat nd - 1 - Z.of_nat (n_dec x) + 1) else point 2 m ++ show_exp (Z.of_nat nd - 1 - Z.of_nat (n_dec x)))) = Some (signed (n_neg x) q)).
  { destruct (Z.eqb_spec m 1000) as [M|_].
    - eexists. split; [|apply read_exp; lia]. replace (Z.of_nat nd - 1 - Z.of_nat (n_dec x) + 1)%Z with (Z.of_nat nd - Z.of_nat (n_dec x))%Z by lia.
      rewrite exp_scale. rewrite M. replace nd with (nd - 1 + 1)%nat at 1 by lia. rewrite p10_add. fold A D. change (p10 2) with 100%Q. change (p10 1) with 10%Q. change (inject_Z 100) with 100%Q. change (inject_Z 1000) with 1000%Q. field. lra.
    - eexists. split; [|apply read_exp; exact Hm]. replace (Z.of_nat nd - 1 - Z.of_nat (n_dec x))%Z with (Z.of_nat (nd - 1) - Z.of_nat (n_dec x))%Z by lia.
      rewrite exp_scale. fold A D. change (p10 2) with 100%Q. field. lra. }
  destruct Goal as (q & Q1 & Q2). exists q. split; [exact Q2|]. rewrite Q1, V. set (t := (A / D)%Q) in *. clear Q1 Q2 V E. clearbody t w. set (z := inject_Z m) in *. clearbody z.
  assert (F1 : ((z * (1 # 100) - w) * t <= w * (1 # 200) * t)%Q) by (apply Qmult_le_compat_r; lra).
  assert (F2 : ((w - z * (1 # 100)) * t <= w * (1 # 200) * t)%Q) by (apply Qmult_le_compat_r; lra).
  assert (G1 : ((z * (1 # 100) - w) * t == z * (1 # 100) * t - w * t)%Q) by ring.
  assert (G2 : ((w - z * (1 # 100)) * t == w * t - z * (1 # 100) * t)%Q) by ring.
  assert (G3 : (w * (1 # 200) * t == w * t * (1 # 200))%Q) by ring.
  rewrite G1, G3 in F1. rewrite G2, G3 in F2. set (a := (z * (1 # 100) * t)%Q) in *. set (b := (w * t)%Q) in *. split; lra.
Qed.
Theorem format_near x : (0 <= n_dig x)%Z -> exists u, read_number (format_float x) = Some u /\ (Qabs (u - value x) <= Qabs (value x) / 200)%Q
  /\ (((n_dig x mod 10 ^ Z.of_nat (n_dec x) = 0)%Z \/ ((n_dec x <= 6)%nat /\ (1 # 10000 < Qabs (value x))%Q /\ (Qabs (value x) < 100)%Q) \/ ((n_dec x <= 2)%nat /\ (100 <= Qabs (value x))%Q /\ (Qabs (value x) < 1000000)%Q)) -> (u == value x)%Q).
Proof.
  intro H. pose proof (value_abs x H) as VA. set (w := Qabs (value x)) in *. clearbody w. change (w / 200)%Q with (w * (1 # 200))%Q. unfold format_float. set (unit := (10 ^ Z.of_nat (n_dec x))%Z). assert (U : (0 < unit)%Z) by apply pow10_pos.
  set (v := (inject_Z (n_dig x) / p10 (n_dec x))%Q). change (value x) with (signed (n_neg x) v). fold v in VA.
  assert (V0 : (0 <= v)%Q). { unfold v. apply Qle_shift_div_l; [apply p10_pos|]. rewrite Qmult_0_l. change 0%Q with (inject_Z 0). rewrite <- Zle_Qle. exact H. }
  assert (LE : forall c, (inject_Z c <= v)%Q <-> (c * unit <= n_dig x)%Z).
  { intro c. rewrite Zle_Qle, inject_Z_mult. change (inject_Z unit) with (p10 (n_dec x)). split; intro K.
    - assert (K' : (inject_Z c * p10 (n_dec x) <= v * p10 (n_dec x))%Q) by (apply Qmult_le_compat_r; [exact K|apply Qlt_le_weak, p10_pos]).
      unfold v in K'. rewrite Qmult_comm with (x := (_ / _)%Q) in K'. rewrite Qmult_div_r in K' by apply p10_nz. exact K'.
    - unfold v. apply Qle_shift_div_l; [apply p10_pos|exact K]. }
  destruct (Z.eqb_spec (n_dig x mod unit) 0) as [W|W].
  - rewrite read_whole by (apply div_nonneg; exact H). eexists. split; [reflexivity|].
    assert (E : (inject_Z (n_dig x / unit * 10) / p10 1 == v)%Q).
    { rewrite whole_value. unfold v. rewrite (Z.div_mod (n_dig x) unit) at 2 by lia. rewrite W, Z.add_0_r, inject_Z_mult. change (inject_Z unit) with (p10 (n_dec x)). field. apply p10_nz. }
    split; [|intros _; apply signed_eq; exact E]. apply signed_diff. rewrite E. split; lra.
  - assert (P : (0 < n_dig x)%Z). { destruct (Z.eq_dec (n_dig x) 0) as [E|E]; [rewrite E in W; elim W; apply Z.mod_0_l; lia|lia]. }
    destruct (Z.leb_spec (1000000 * unit) (n_dig x)) as [B|B]; cbn [orb].
    + destruct (scientific_near x P) as (q & A1 & A2 & A3). fold v in A2, A3. eexists. split; [exact A1|].
      split; [apply signed_diff; split; lra|]. apply LE in B. change (inject_Z 1000000) with 1000000%Q in B. intros [K|[K|K]]; [congruence|lra|lra].
    + assert (B' : (v < 1000000)%Q). { apply Qnot_le_lt. intro K. apply (LE 1000000%Z) in K. lia. }
      destruct (Z.leb_spec (n_dig x * 10000) unit) as [S|S].
      * destruct (scientific_near x P) as (q & A1 & A2 & A3). fold v in A2, A3. eexists. split; [exact A1|].
        split; [apply signed_diff; split; lra|].
        assert (K' : (v <= 1 # 10000)%Q).
        { unfold v. apply Qle_shift_div_r; [apply p10_pos|]. rewrite Zle_Qle in S. rewrite inject_Z_mult in S. change (inject_Z unit) with (p10 (n_dec x)) in S. change (inject_Z 10000) with 10000%Q in S. lra. }
        intros [K|[K|K]]; [congruence|lra|lra].
      * assert (S' : (1 # 10000 < v)%Q).
        { unfold v. apply Qlt_shift_div_l; [apply p10_pos|]. rewrite Zlt_Qlt in S. rewrite inject_Z_mult in S. change (inject_Z unit) with (p10 (n_dec x)) in S. change (inject_Z 10000) with 10000%Q in S. lra. }
        destruct (Z.leb_spec (100 * unit) (n_dig x)) as [C|C].
        -- apply LE in C. change (inject_Z 100) with 100%Q in C.
           destruct (fixed_near 2 x H) as (q & A1 & A2 & A3 & A4). fold v in A2, A3, A4. change (p10 2) with 100%Q in *. eexists. split; [exact A1|].
           split; [apply signed_diff; split; lra|]. intros [K|[K|(K & _)]]; [congruence|lra|]. apply signed_eq, A4, K.
        -- assert (C' : (v < 100)%Q). { apply Qnot_le_lt. intro K. apply (LE 100%Z) in K. lia. }
           destruct (fixed_near 6 x H) as (q & A1 & A2 & A3 & A4). fold v in A2, A3, A4. change (p10 6) with 1000000%Q in *. eexists. split; [exact A1|].
           split; [apply signed_diff; split; lra|]. intros [K|[(K & _)|K]]; [congruence| |lra]. apply signed_eq, A4, K.
Qed.

(** * Names *)
Lemma prefix_no c r : match r with String d _ => d <> "<"%char | "" => True end -> String.prefix sep (String c r) = false.
Proof.
  intro H. unfold sep. cbn [String.prefix]. destruct (ascii_dec " " c); [|reflexivity]. destruct r as [|d r]; [reflexivity|].
  cbn [String.prefix]. destruct (ascii_dec "<" d) as [E|_]; [congruence|reflexivity].
Qed.
Lemma head_no r : has "<" r = false -> match r with String d _ => d <> "<"%char | "" => True end.
Proof. destruct r as [|d r]; [auto|]. cbn [has]. intros H ->. rewrite Ascii.eqb_refl in H. discriminate. Qed.
Lemma pieces_none a : has "<" a = false -> pieces 0 a = (a, []).
Proof.
  induction a as [|c a IH]; intro H; [reflexivity|]. cbn [has] in H. apply orb_false_iff in H. destruct H as [H1 H2].
  cbn [pieces]. rewrite prefix_no by (apply head_no; exact H2). rewrite (IH H2). reflexivity.
Qed.
Lemma pieces_sep a t : has "<" a = false -> has "<" t = false -> pieces 0 (a ++ sep ++ t) = (a, [t]).
Proof.
  intros Ha Ht. induction a as [|c a IH].
  - transitivity (let (p, ps) := pieces 0 t in ("", p :: ps)); [destruct t; reflexivity|]. rewrite (pieces_none t Ht). reflexivity.
  - cbn [has] in Ha. apply orb_false_iff in Ha. destruct Ha as [H1 H2]. change ((String c a) ++ sep ++ t) with (String c (a ++ sep ++ t)).
    cbn [pieces]. rewrite prefix_no; [rewrite (IH H2); reflexivity|].
    destruct a as [|d a]; [cbn; discriminate|]. cbn [append]. apply (head_no (String d a)). exact H2.
Qed.
Lemma has_minus c b s : Ascii.eqb "-" c = false -> has c (minus b s) = has c s.
Proof. intro H. destruct b; [|reflexivity]. cbn [minus append has]. rewrite H. reflexivity. Qed.
Lemma str_float_free c x : digit_of c = None -> Ascii.eqb "-" c = false -> Ascii.eqb "." c = false -> has c (str_float x) = false.
Proof.
  intros H1 H2 H3. unfold str_float. rewrite has_minus by exact H2. destruct (n_dec x) as [|k].
  - rewrite has_app, show_free by exact H1. cbn [has orb]. rewrite H3. cbn [orb]. destruct (Ascii.eqb_spec "0" c) as [<-|_]; [discriminate H1|reflexivity].
  - apply point_free; assumption.
Qed.
Lemma str_int_free c z : digit_of c = None -> Ascii.eqb "-" c = false -> has c (str_int z) = false.
Proof. intros H1 H2. unfold str_int. rewrite has_minus by exact H2. apply show_free. exact H1. Qed.
Lemma str_float_len x : (3 <= String.length (str_float x))%nat.
Proof.
  assert (H : (3 <= String.length (match n_dec x with O => show (n_dig x) ++ ".0" | S k => point (S k) (n_dig x) end))%nat).
  { destruct (n_dec x) as [|k].
    - rewrite slen_app. pose proof (show_ne (n_dig x)). destruct (show (n_dig x)); [congruence|]. cbn. lia.
    - unfold point. rewrite !slen_app, digits_len. pose proof (show_ne (n_dig x / 10 ^ Z.of_nat (S k))). destruct (show _); [congruence|]. cbn. lia. }
  unfold str_float. destruct (n_dec x); destruct (n_neg x); cbn [minus append String.length]; lia.
Qed.
Lemma parse_point b i k n : (0 <= i)%Z -> (n mod 10 ^ Z.of_nat k + i * 10 ^ Z.of_nat k = n)%Z ->
  parse_float (minus b (show i ++ "." ++ digits k n)) = Some (Nr b n k).
Proof.
  intros Hi E. unfold parse_float. rewrite sign_minus by apply heads_app, heads_show.
  rewrite cut_none by (rewrite !has_app, show_free, digits_free by reflexivity; reflexivity).
  change ("." ++ digits k n) with (String "." (digits k n)). rewrite cut_found by (apply show_free; reflexivity).
  pose proof (show_ne i) as NE. destruct (Nat.eqb_spec (String.length (show i) + String.length (digits k n)) 0) as [L|_].
  { destruct (show i); [congruence|cbn in L; lia]. }
  rewrite read_app, read_show0 by exact Hi. rewrite read_digits_k, digits_len. do 2 f_equal. lia.
Qed.
Lemma parse_str_float x : (0 <= n_dig x)%Z -> exists y, parse_float (str_float x) = Some y /\ (0 <= n_dig y)%Z /\ (value y == value x)%Q
  /\ (y = x \/ (n_dig y mod 10 ^ Z.of_nat (n_dec y) = 0)%Z).
Proof.
  intro H. unfold str_float. destruct (n_dec x) as [|k] eqn:K.
  - exists (Nr (n_neg x) (n_dig x * 10) 1). split; [|split; [cbn; lia|split]].
    + rewrite <- (parse_point (n_neg x) (n_dig x) 1 (n_dig x * 10)); [|exact H|change (10 ^ Z.of_nat 1)%Z with 10%Z; rewrite Z.mod_mul by lia; lia].
      do 3 f_equal. cbn [digits]. rewrite Z.mod_mul by lia. reflexivity.
    + unfold value. cbn [n_neg n_dig n_dec]. rewrite K. apply signed_eq. rewrite whole_value. unfold p10. cbn. field.
    + right. cbn [n_dig n_dec]. change (10 ^ Z.of_nat 1)%Z with 10%Z. apply Z.mod_mul. lia.
  - exists x. split; [|split; [exact H|split; [reflexivity|left; reflexivity]]].
    unfold point. rewrite parse_point by (apply div_nonneg || apply split10; exact H). rewrite <- K. destruct x; reflexivity.
Qed.
(** The printed threshold. *)
Lemma printed_cut nm t : has "<" nm = false -> (0 <= n_dig t)%Z -> exists txt u, predicate_str "<=" (nm ++ sep ++ str_float t) = Some (nm ++ " <= " ++ txt)
  /\ read_number txt = Some u /\ (Qabs (u - value t) <= Qabs (value t) / 200)%Q
  /\ (((n_dig t mod 10 ^ Z.of_nat (n_dec t) = 0)%Z \/ ((n_dec t <= 6)%nat /\ (1 # 10000 < Qabs (value t))%Q /\ (Qabs (value t) < 100)%Q) \/ ((n_dec t <= 2)%nat /\ (100 <= Qabs (value t))%Q /\ (Qabs (value t) < 1000000)%Q)) -> (u == value t)%Q).
Proof.
  intros Hn Ht. unfold predicate_str. rewrite pieces_sep; [|exact Hn|apply str_float_free; reflexivity].
  destruct (Nat.leb_spec 3 (String.length (str_float t))) as [_|L]; [|pose proof (str_float_len t); lia].
  destruct (parse_str_float t Ht) as (y & P & Hy & V & D). rewrite P. destruct (format_near y Hy) as (u & R & N & X).
  exists (format_float y), u. split; [reflexivity|]. split; [exact R|]. rewrite V in N. split; [exact N|]. intro C.
  rewrite <- V. apply X. destruct D as [->|D]; [exact C|left; exact D].
Qed.

(** * Values in names *)
Lemma escape_spec s : escape s = escaped s.
Proof. induction s as [|c s IH]; cbn; [reflexivity|]. rewrite IH. reflexivity. Qed.
Definition fine (v : cell) : Prop := match v with Txt s => has "<" s = false | Flt x => (0 <= n_dig x)%Z | Int _ => True end.
Lemma show_cell_text v : fine v -> cell_text (show_cell v) v.
Proof.
  destruct v as [z|x|s]; cbn [show_cell fine]; intro H.
  - destruct (read_str_int z) as (q & A & B). eapply ct_int; eassumption.
  - destruct (read_str_float x H) as (q & A & B). eapply ct_flt; eassumption.
  - rewrite escape_spec. apply ct_txt.
Qed.
Lemma escape_free c s : Ascii.eqb "\" c = false -> has c s = false -> has c (escape s) = false.
Proof.
  intro Hb. induction s as [|a s IH]; [reflexivity|]. cbn [has escape]. intro H. apply orb_false_iff in H. destruct H as [H1 H2].
  destruct (Ascii.eqb_spec a "'") as [->|_]; cbn [has]; rewrite ?Hb, H1, (IH H2); reflexivity.
Qed.
Lemma show_cell_free v : fine v -> has "<" (show_cell v) = false.
Proof.
  destruct v as [z|x|s]; cbn [show_cell fine]; intro H.
  - apply str_int_free; reflexivity.
  - apply str_float_free; reflexivity.
  - rewrite !has_app, escape_free by (exact H || reflexivity). reflexivity.
Qed.
Lemma noquote s : has "'" s = false -> escape s = s.
Proof.
  induction s as [|a s IH]; [reflexivity|]. cbn [has escape]. intro H. apply orb_false_iff in H. destruct H as [H1 H2]. rewrite H1, (IH H2). reflexivity.
Qed.
Definition quote_free (v : cell) : Prop := match v with Txt s => has "'" s = false | _ => True end.
Lemma second_same v : quote_free v -> show_second v = show_cell v.
Proof. destruct v as [z|x|s]; cbn [quote_free show_second show_cell]; try reflexivity. intro H. rewrite noquote by exact H. reflexivity. Qed.
Lemma join_text vs : vs <> [] -> Forall fine vs -> list_text (join (map show_cell vs)) vs.
Proof.
  induction vs as [|v vs IH]; [congruence|]. intros _ H. inversion H as [|? ? H1 H2]; subst. destruct vs as [|w vs].
  - apply lt_one, show_cell_text, H1.
  - change (join (map show_cell (v :: w :: vs))) with (show_cell v ++ "," ++ join (map show_cell (w :: vs))).
    apply lt_more; [apply show_cell_text, H1|]. apply IH; [discriminate|exact H2].
Qed.
Lemma join_free vs : Forall fine vs -> has "<" (join (map show_cell vs)) = false.
Proof.
  induction vs as [|v vs IH]; [reflexivity|]. intro H. inversion H as [|? ? H1 H2]; subst. destruct vs as [|w vs].
  - apply show_cell_free, H1.
  - change (join (map show_cell (v :: w :: vs))) with (show_cell v ++ "," ++ join (map show_cell (w :: vs))).
    rewrite !has_app, show_cell_free, (IH H2) by exact H1. reflexivity.
Qed.

(** * Values of a column *)
Lemma distinct_in col : forall seen x, In x (distinct_cells seen col) -> In x col.
Proof.
  induction col as [|y col IH]; intros seen x; cbn [distinct_cells]; [auto|]. destruct (existsb _ _).
  - intro H. right. eapply IH. exact H.
  - intros [<-|H]; [left; reflexivity|right; eapply IH; exact H].
Qed.
Lemma by_count_in c x l y : In y (by_count c x l) <-> y = x \/ In y l.
Proof.
  induction l as [|z l IH]; cbn [by_count]; [cbn; intuition|]. destruct (c z <=? c x)%nat; cbn [In]; [intuition|]. rewrite IH. intuition.
Qed.
Lemma by_count_len c x l : List.length (by_count c x l) = S (List.length l).
Proof. induction l as [|z l IH]; cbn [by_count]; [reflexivity|]. destruct (c z <=? c x)%nat; cbn; [reflexivity|]. rewrite IH. reflexivity. Qed.
Lemma sorted_in c l y : In y (fold_right (by_count c) [] l) <-> In y l.
Proof. induction l as [|z l IH]; cbn [fold_right]; [tauto|]. rewrite by_count_in, IH. cbn. intuition. Qed.
Lemma sorted_len c l : List.length (fold_right (by_count c) [] l) = List.length l.
Proof. induction l as [|z l IH]; cbn [fold_right]; [reflexivity|]. rewrite by_count_len, IH. reflexivity. Qed.
Lemma second_in col : (1 < List.length (distinct_cells [] col))%nat -> In (second_common col) col.
Proof.
  intro H. unfold second_common. eapply distinct_in with (seen := []). apply (sorted_in (count col)). apply nth_In. rewrite sorted_len. exact H.
Qed.
