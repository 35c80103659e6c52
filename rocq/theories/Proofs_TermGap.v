(** The depth-two solver when at most one feature takes part in pairs. *)
From Coq Require Import List Arith Bool Lia ZArith QArith.
From Verif Require Import Base_Q Model_Data Model_Node Model_Terminal Model_TermReg.
Import ListNotations.
Local Open Scope nat_scope.

Lemma lonely bc nf mls R b n : 1 < n -> length (q_features nf mls R b) <= 1 -> q_r3 (q_results bc nf mls R b n) = q_r1 (q_results bc nf mls R b n).
Proof.
  intros Hn Hl. unfold q_results. destruct (_ <? _)%Z; [reflexivity|]. destruct (n =? 1) eqn:En; [apply Nat.eqb_eq in En; lia|].
  assert (Q : forall o, qadds None o = o) by (intros [x|]; reflexivity). destruct (is_zero (q_one bc nf mls R)); cbn [q_r1 q_r3]; [rewrite !Q; reflexivity|].
  assert (E : let st := q_loop bc mls R (q_features nf mls R b) (QState (fun _ _ => None) None None) in q_two st = None /\ q_three st = None).
  { cbn zeta. destruct (q_features nf mls R b) as [|f [|g l]]; [cbn; auto| |cbn [length] in Hl; lia]. cbn [q_loop q_three is_zero fold_left]. unfold q_update3, q_update2. cbn [q_ch q_two q_three q_both]. destruct (q_leaf mls R false f); auto. }
  cbn zeta in E. destruct E as [-> ->]. rewrite !Q. reflexivity.
Qed.
Lemma filter_repeat {A} (p : A -> bool) a k : filter p (repeat a k) = if p a then repeat a k else [].
Proof. induction k as [|k IH]; cbn [repeat filter]; [destruct (p a); reflexivity|]. rewrite IH. destruct (p a); reflexivity. Qed.
