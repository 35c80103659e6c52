(** Sums of rationals and natural numbers as rationals. *)
From Coq Require Import List QArith Lqa Lia Permutation.
Import ListNotations.
Local Open Scope nat_scope.

Definition qn (n : nat) : Q := inject_Z (Z.of_nat n).

Fixpoint sumQ {A} (f : A -> Q) (l : list A) : Q := match l with [] => 0 | x :: l' => f x + sumQ f l' end%Q.
Lemma sumQ_ext {A} (f g : A -> Q) l : (forall x, In x l -> f x == g x)%Q -> (sumQ f l == sumQ g l)%Q.
Proof. induction l as [|x l IH]; intros H; cbn; [reflexivity|]. rewrite (H x), IH; [reflexivity| |now left]. intros y I. apply H. now right. Qed.
Lemma sumQ_app {A} (f : A -> Q) l l' : (sumQ f (l ++ l') == sumQ f l + sumQ f l')%Q.
Proof. induction l as [|x l IH]; cbn; [lra|]. rewrite IH. lra. Qed.
Lemma fold_sum {A} (f : A -> Q) l : forall a, (fold_left (fun a x => a + f x)%Q l a == a + sumQ f l)%Q.
Proof. induction l as [|x l IH]; intros a; cbn; [lra|]. rewrite IH. lra. Qed.
Lemma qn_pos n : 0 < n -> (0 < qn n)%Q.
Proof. intros H. unfold qn. change 0%Q with (inject_Z 0). rewrite <- Zlt_Qlt. lia. Qed.
Lemma qn_add a b : (qn (a + b) == qn a + qn b)%Q.
Proof. unfold qn. rewrite Nat2Z.inj_add, inject_Z_plus. reflexivity. Qed.
Lemma qn_S a : (qn (S a) == qn a + 1)%Q.
Proof. rewrite <- Nat.add_1_r, qn_add. reflexivity. Qed.
Lemma sumQ_nonneg {A} (f : A -> Q) l : (forall x, In x l -> 0 <= f x)%Q -> (0 <= sumQ f l)%Q.
Proof. induction l as [|x l IH]; intros H; cbn; [lra|]. pose proof (H x (or_introl eq_refl)). specialize (IH (fun y I => H y (or_intror I))). lra. Qed.
Lemma sumQ_perm {A} (f : A -> Q) l l' : Permutation l l' -> (sumQ f l == sumQ f l')%Q.
Proof. induction 1; cbn; [reflexivity|rewrite IHPermutation; reflexivity|lra|rewrite IHPermutation1; exact IHPermutation2]. Qed.
