(** Properties of the feature-pair index and of feature vectors: C15, C21. *)
From Coq Require Import List Arith Bool Lia Sorted.
From Verif Require Import Model_FeatureVector Proofs_Feature.
Import ListNotations.

(** C15. The cells used for the pairs [f <= g < nf] are distinct, inside the allocated
    storage, and use up the whole storage. *)
Theorem C15_pair_index_bijection (nf : nat) :
  (forall f g, f <= g < nf -> pair_index nf f g < num_elements nf)
  /\ (forall f g f' g', f <= g < nf -> f' <= g' < nf -> pair_index nf f g = pair_index nf f' g' -> f = f' /\ g = g')
  /\ (forall i, i < num_elements nf -> exists f g, f <= g < nf /\ pair_index nf f g = i).
Proof.
  split; [|split].
  - intros f g [H1 H2]. apply pair_index_lt; assumption.
  - intros f g f' g' [H1 H2] [H3 H4]. apply pair_index_inj; assumption.
  - intros i H. destruct (pair_index_surj nf i H) as (f & g & H1 & H2 & H3). exists f, g. auto.
Qed.
Print Assumptions C15_pair_index_bijection.

(** C15. The indices stored with a feature vector are exactly the cells of its pairs of
    present features, each once. *)
Theorem C15_vector_pairs (bits : list bool) :
  let v := fv_compute_pairs (fv_make bits) in
  NoDup (fv_pairs v)
  /\ forall f g, f <= g < length bits ->
     (In (pair_index (length bits) f g) (fv_pairs v) <-> nth f bits false = true /\ nth g bits false = true).
Proof.
  cbn zeta. destruct (fv_make_ok bits) as [Hs Hin].
  assert (Hlt : forall f, In f (fv_present (fv_make bits)) -> f < length bits) by (intros f Hf; apply Hin in Hf; apply Hf).
  cbn [fv_compute_pairs fv_pairs fv_num fv_make fv_bits] in *. unfold fv_num. cbn [fv_bits].
  split; [apply pairs_of_NoDup; assumption|]. intros f g [H1 H2].
  rewrite in_pairs_of by assumption. split.
  - intros (f' & g' & Hf & Hg & Hle & He). apply pair_index_inj in He; [|assumption|assumption|assumption|apply Hlt; exact Hg].
    destruct He as [-> ->]. apply Hin in Hf, Hg. split; [apply Hf|apply Hg].
  - intros [Hf Hg]. exists f, g. repeat split; try assumption; apply Hin; split; try assumption; unfold fv_num; cbn [fv_bits fv_make]; lia.
Qed.
Print Assumptions C15_vector_pairs.

Example C15_example : map (fun p => pair_index 4 (fst p) (snd p))
    [(0,0);(0,1);(0,2);(0,3);(1,1);(1,2);(1,3);(2,2);(2,3);(3,3)] = seq 0 10 /\ num_elements 4 = 10.
Proof. split; reflexivity. Qed.

(** C21. After any sequence of flips and disables of existing features: the list of present
    features is strictly increasing and consists of exactly the features reported present. *)
Theorem C21_vectors_consistent (bits : list bool) (ops : list fv_op) :
  (forall o, In o ops -> op_feature o < length bits) ->
  let v := fold_left fv_apply ops (fv_make bits) in
  StronglySorted lt (fv_present v)
  /\ (forall f, In f (fv_present v) <-> f < length bits /\ fv_has v f = true)
  /\ fv_num v = length bits.
Proof.
  intros H v. destruct (fv_ops_ok ops (fv_make bits) (fv_make_ok bits) H) as [[H1 H2] H3].
  change (fv_num (fv_make bits)) with (length bits) in H3. fold v in H1, H2, H3. rewrite H3 in H2. auto.
Qed.
Print Assumptions C21_vectors_consistent.

(** C21. One operation changes exactly one feature, as announced; flipping twice gives back
    the same vector. *)
Theorem C21_flip_disable (bits : list bool) (ops : list fv_op) (f : nat) :
  (forall o, In o ops -> op_feature o < length bits) -> f < length bits ->
  let v := fold_left fv_apply ops (fv_make bits) in
  (forall g, fv_has (fv_flip v f) g = if g =? f then negb (fv_has v f) else fv_has v g)
  /\ (forall g, fv_has (fv_disable v f) g = if g =? f then false else fv_has v g)
  /\ fv_flip (fv_flip v f) f = v.
Proof.
  intros H Hf v. destruct (fv_ops_ok ops (fv_make bits) (fv_make_ok bits) H) as [H1 H3]. fold v in H1, H3.
  assert (Hv : f < fv_num v) by (rewrite H3; exact Hf).
  split; [|split].
  - intro g. apply fv_flip_has. exact Hv.
  - intro g. apply fv_disable_has. exact Hv.
  - apply fv_flip_flip; assumption.
Qed.
Print Assumptions C21_flip_disable.

Example C21_example :
  let v := fold_left fv_apply [OFlip 1; ODisable 3; OFlip 0; OFlip 4] (fv_make [true; false; true; true; false]) in
  fv_present v = [1; 2; 4] /\ fv_bits v = [false; true; true; false; true].
Proof. split; reflexivity. Qed.
