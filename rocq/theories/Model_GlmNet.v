(** Model of the leaves of piecewise linear regression.
    Source: /repo/src/tasks/regression/piecewise_linear_regression.cpp (line numbers below) and
    /repo/include/tasks/regression/piecewise_linear_regression.h.  Doubles are modelled by
    rationals; divisions by zero are treated explicitly. *)
From Coq Require Import List Arith Bool ZArith QArith Qabs.
From Verif Require Import Base_Q Model_FeatureVector Model_Data Model_SimpleLinear Model_Similarity.
Import ListNotations.
Local Open Scope nat_scope.

(** A row in a leaf: target and values of the continuous features. *)
Definition grow := (Q * list Q)%type.
Definition gcol (rows : list grow) (j : nat) : list Q := map (fun r => nth j (snd r) 0%Q) rows.
Definition gsum (l : list Q) : Q := fold_left Qplus l 0%Q.
(** 271-294: the mean of a feature, and the mark for features whose values (nearly) do not change
    along the rows. *)
Definition g_mean (l : list Q) : Q := (gsum l / qn (length l))%Q.
Fixpoint g_delta (prev acc : Q) (l : list Q) : Q :=
  match l with [] => acc | f :: l' => g_delta f (acc + Qabs (f - prev))%Q l' end.
Definition g_redundant (rows : list grow) (j : nat) : bool :=
  match gcol rows j with [] => true | f :: l => qlt (Qabs (g_delta f 0%Q (f :: l))) (1 # 10000) end.
(** 296-307: the centred columns.  (The columns are as long as the training data; only the
    first N entries are read.) *)
Definition g_X (rows : list grow) (j : nat) : list Q :=
  if g_redundant rows j then map (fun _ => 0%Q) rows else map (fun f => f - g_mean (gcol rows j))%Q (gcol rows j).
Fixpoint g_inner (a b : list Q) (acc : Q) : Q :=
  match a, b with x :: a', y :: b' => g_inner a' b' (acc + x * y)%Q | _, _ => acc end.
(** 309-330: the sums; [ysq_sum] and [y_sum] grow with every feature that is not redundant. *)
Definition g_targets (rows : list grow) : list Q := map fst rows.
Definition g_yc (rows : list grow) : list Q := map (fun y => y - g_mean (g_targets rows))%Q (g_targets rows).
Definition g_xy (rows : list grow) (j : nat) : Q := if g_redundant rows j then 0%Q else g_inner (g_X rows j) (g_yc rows) 0%Q.
Definition g_x (rows : list grow) (j : nat) : Q := if g_redundant rows j then 0%Q else gsum (g_X rows j).
Definition g_xx (rows : list grow) (j : nat) : Q := if g_redundant rows j then 0%Q else g_inner (g_X rows j) (g_X rows j) 0%Q.
Definition g_ysq_sum (cf : nat) (rows : list grow) : Q :=
  fold_left (fun a j => if g_redundant rows j then a else g_inner (g_yc rows) (g_yc rows) a) (seq 0 cf) 0%Q.
Definition g_y_sum (cf : nat) (rows : list grow) : Q :=
  fold_left (fun a j => if g_redundant rows j then a else fold_left Qplus (g_yc rows) a) (seq 0 cf) 0%Q.
(** 332-335. *)
Definition g_lambda_max (cf : nat) (rows : list grow) : Q :=
  fold_left (fun a j => if qlt a (Qabs (g_xy rows j)) then Qabs (g_xy rows j) else a) (seq 0 cf) 0%Q.

(** The state of the iteration: coefficients, matrix of covariances, list of features with a
    coefficient (is_non_zero marks the members of this list). *)
Record gst := GS { g_b : list Q; g_cov : list (list Q); g_nz : list nat }.
Definition mat_get (m : list (list Q)) (j k : nat) : Q := nth k (nth j m []) 0%Q.
Definition mat_set (m : list (list Q)) (j k : nat) (v : Q) : list (list Q) := set_nth j (set_nth k v (nth j m [])) m.
(** 224-235: GetCovariate: the covariance is computed when the stored value is small, and added
    to the stored value. *)
Definition g_covariate (rows : list grow) (m : list (list Q)) (j k : nat) : Q * list (list Q) :=
  let v := mat_get m j k in
  if qlt (Qabs v) (1 # 10000) then let v' := g_inner (g_X rows j) (g_X rows k) v in (v', mat_set (mat_set m j k v') k j v')
  else (v, m).
(** 353-361: the residual product of feature j. *)
Fixpoint g_resid (rows : list grow) (b : list Q) (j : nat) (nz : list nat) (acc : Q) (m : list (list Q)) : Q * list (list Q) :=
  match nz with
  | [] => (acc, m)
  | k :: nz' => if k =? j then g_resid rows b j nz' acc m
                else let '(c, m') := g_covariate rows m j k in g_resid rows b j nz' (acc - nth k b 0 * c)%Q m'
  end.
Definition is_nz (nz : list nat) (j : nat) : bool := existsb (Nat.eqb j) nz.
(** 371: whether a coefficient changed by more than 0.1%; dividing by an old value 0 gives
    infinity, or not-a-number when the new one is 0 too. *)
Definition g_changed (old new : Q) : bool :=
  if Qeq_bool old 0 then negb (Qeq_bool new 0) else qlt (1 # 1000) (Qabs ((new - old) / old)).
(** 352-379: one feature in a pass. *)
Definition g_step (rows : list grow) (lambda gamma : Q) (s : gst * bool) (j : nat) : gst * bool :=
  let '(st, sig) := s in
  if g_redundant rows j then s else
  let '(bj, m) := g_resid rows (g_b st) j (g_nz st) (g_xy rows j) (g_cov st) in
  if qlt (Qabs bj) lambda then (GS (g_b st) m (g_nz st), sig) else
  let new := (if qlt bj 0 then (bj + lambda) / (mat_get m j j + gamma) else (bj - lambda) / (mat_get m j j + gamma))%Q in
  (GS (set_nth j new (g_b st)) m (if is_nz (g_nz st) j then g_nz st else g_nz st ++ [j]),
   sig || g_changed (nth j (g_b st) 0%Q) new).
Definition g_pass (cf : nat) (rows : list grow) (lambda gamma : Q) (st : gst) : gst * bool :=
  fold_left (g_step rows lambda gamma) (seq 0 cf) (st, false).
(** 389-397, 432-441: cross terms of the features j < k with the given tests. *)
Fixpoint g_cross (rows : list grow) (use : nat -> bool) (w : nat -> Q -> Q) (j : nat) (ks : list nat) (acc : Q) (m : list (list Q)) : Q * list (list Q) :=
  match ks with
  | [] => (acc, m)
  | k :: ks' => if use k then let '(c, m') := g_covariate rows m j k in g_cross rows use w j ks' (acc + w k c)%Q m'
                else g_cross rows use w j ks' acc m
  end.
(** 381-403: the error and penalties after a pass (b0 is 0). *)
Definition g_sse (cf : nat) (rows : list grow) (lambda gamma : Q) (st : gst) : Q * list (list Q) :=
  let b k := nth k (g_b st) 0%Q in
  let '(sse, l1, l2) := fold_left (fun a k => (fst (fst a) - 2 * b k * g_xy rows k, snd (fst a) + Qabs (b k), snd a + b k * b k)%Q) (g_nz st) (g_ysq_sum cf rows, 0%Q, 0%Q) in
  let '(sse', m') := fold_left (fun a j => if is_nz (g_nz st) j then
      g_cross rows (is_nz (g_nz st)) (fun k c => 2 * b j * b k * c)%Q j (seq (S j) (cf - S j)) (fst a + b j * b j * mat_get (snd a) j j)%Q (snd a)
    else a) (seq 0 cf) (sse, g_cov st) in
  ((sse' + 2 * lambda * l1 + gamma * l2)%Q, m').
(** 405: the stop test; a division by zero gives an infinity or not-a-number. *)
Definition g_stop (prev : option Q) (sse : Q) : bool :=
  match prev with
  | None => false
  | Some p => if Qeq_bool sse 0 then qlt p 0 else qlt ((p - sse) / sse) (1 # 1000)
  end.
(** 344-408: the passes. *)
Fixpoint g_loop (n : nat) (cf : nat) (rows : list grow) (lambda gamma : Q) (prev : option Q) (st : gst) : gst :=
  match n with
  | 0 => st
  | S n' =>
    let '(st1, sig) := g_pass cf rows lambda gamma st in
    let '(sse, m) := g_sse cf rows lambda gamma st1 in
    let st2 := GS (g_b st1) m (g_nz st1) in
    if g_stop prev sse then st2 else if sig then g_loop n' cf rows lambda gamma (Some sse) st2 else st2
  end.
(** 238-256: the first state. *)
Definition g_init (cf : nat) (rows : list grow) : gst :=
  GS (repeat 0%Q cf) (map (fun j => map (fun k => if j =? k then g_xx rows j else 0%Q) (seq 0 cf)) (seq 0 cf)) [].
(** 410-418: the model for the rows as they are. *)
Definition g_intercept (cf : nat) (rows : list grow) (b : list Q) : Q :=
  fold_left (fun a j => a - g_mean (gcol rows j) * nth j b 0)%Q (seq 0 cf) (g_mean (g_targets rows)).
(** 420-444: the cost of the leaf. *)
Definition g_cost (cf : nat) (rows : list grow) (lambda gamma : Q) (st : gst) : Q :=
  let b k := nth k (g_b st) 0%Q in
  let n := qn (length rows) in
  let b0 := g_intercept cf rows (g_b st) in
  let mu k := g_mean (gcol rows k) in
  let ymu := g_mean (g_targets rows) in
  let '(sse, l1, l2) := fold_left (fun a k =>
      (fst (fst a) - 2 * b k * (g_xy rows k + g_x rows k * ymu + mu k * g_y_sum cf rows + n * mu k * ymu), snd (fst a) + Qabs (b k), snd a + b k * b k)%Q)
    (g_nz st) ((fold_left (fun a y => a + y * y) (g_targets rows) 0 - 2 * b0 * gsum (g_targets rows) + b0 * b0 * n)%Q, 0%Q, 0%Q) in
  let '(sse', _) := fold_left (fun a j => if is_nz (g_nz st) j then
      g_cross rows (fun k => negb (qlt (Qabs (b k)) (1 # 10000)))
        (fun k c => 2 * b j * b k * (c + g_x rows j * mu k + g_x rows k * mu j + n * mu j * mu k))%Q j (seq (S j) (cf - S j))
        (fst a + 2 * b0 * b j * gsum (gcol rows j) + b j * b j * fold_left (fun a f => a + f * f)%Q (gcol rows j) 0)%Q (snd a)
    else a) (seq 0 cf) (sse, g_cov st) in
  (sse' + 2 * l1 * lambda + l2 * gamma)%Q.
(** 237-446: SolveGLMNet.  [None]: the worst label with the worst cost.  [n]: the most passes,
    10000 in the code. *)
Definition glm (n cf : nat) (lasso ridge : Q) (rows : list grow) : option (linmodel * Q) :=
  let lambda := (qn (length rows) * lasso)%Q in
  let gamma := (qn (length rows) * ridge)%Q in
  if Qle_bool (g_lambda_max cf rows) lambda then None else
  let st := g_loop n cf rows lambda gamma None (g_init cf rows) in
  Some (LM (g_b st) (g_intercept cf rows (g_b st)), g_cost cf rows lambda gamma st).
(** 463-471: GetLeafCosts: the squared error without penalties. *)
Definition glm_leaf_costs (rows : list grow) (m : linmodel) : Q :=
  fold_left (fun a r => a + (fst r - lm_predict m (snd r)) * (fst r - lm_predict m (snd r)))%Q rows 0%Q.

(** * Normalisation *)
(** 79-129: PreprocessTrainData: [mu] and [sd] are the means and the standard deviations. *)
Definition g_normal (mu sd : list Q) (x : list Q) : list Q :=
  map (fun p => let '(m, s, v) := p in if qlt (Qabs s) (1 # 1000000) then v else (v - m) / s)%Q (combine (combine mu sd) x).
(** 131-154: PostProcessTree for a leaf; [None]: a division by zero (the value is infinite or
    not a number and so is every prediction). *)
Fixpoint g_quot (b sd : list Q) : option (list Q) :=
  match b, sd with
  | v :: b', s :: sd' => if Qeq_bool s 0 then None else match g_quot b' sd' with Some l => Some (v / s :: l)%Q | None => None end
  | _, _ => Some []
  end.
Definition g_post (mu sd : list Q) (m : linmodel) : option linmodel :=
  match g_quot (lm_b m) sd with
  | Some b => Some (LM b (fold_left (fun a p => a - fst p * snd p)%Q (combine mu b) (lm_b0 m)))
  | None => None
  end.
Fixpoint g_post_tree (mu sd : list Q) (t : ltree) : option ltree :=
  match t with
  | LLeaf m => match g_post mu sd m with Some m' => Some (LLeaf m') | None => None end
  | LSplit f l r => match g_post_tree mu sd l, g_post_tree mu sd r with Some l', Some r' => Some (LSplit f l' r') | _, _ => None end
  end.

(** * Similarity *)
(** h:91-94 and 156-190: the worst contribution of a row; [root] is the square root of the sum of
    squares about the mean.  Rows carry their id. *)
Definition g_max_lb (ys : list Q) (root : Q) : Q :=
  (fold_left (fun a y => if qlt a (Qabs y) then Qabs y else a) ys (match ys with [] => 0 | y :: _ => Qabs y end) + root)%Q.
Definition g_worst (max_lb y : Q) : Q := ((max_lb - Qabs y) * (max_lb - Qabs y))%Q.
(** 483-528: ComputeSimilarityLowerBound. *)
Definition g_sim (max_lb : Q) (old new : list (nat * grow)) : Q * nat :=
  custom_diff fst (fun r => g_worst max_lb (fst (snd r))) (fun _ => 1) new old.
