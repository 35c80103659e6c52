(** Model of the search for partially ordered tasks (F1-score, group fairness, equality of
    opportunity) with upper and lower bounds, both caches, the similarity bound and the
    depth-two solver, that is in every configuration.  Model_Pareto.v models the same search
    with all of these off.
    Sources: /repo/src/solver/solver.cpp, /repo/src/solver/terminal_solver.cpp,
    /repo/src/solver/branch_cache.cpp, /repo/src/solver/dataset_cache.cpp,
    /repo/src/solver/cache.cpp, /repo/include/solver/cache_entry.h,
    /repo/src/solver/similarity_lowerbound.cpp, /repo/include/solver/optimization_utils.h.
    Simplifications: the time limit is not reached; integers do not overflow; containers are
    values (the C++ code shares them by pointer: the lower bounds of entries transferred between
    branches with equal data stay shared there, and SubstractLB writes to the shared empty
    bound); the frequency counts of the depth-two solver are computed from the data (that they
    are right is property C14). *)
From Coq Require Import List Arith Bool ZArith QArith.
From Verif Require Import Model_FeatureVector Model_Data Model_Node Model_Terminal Model_Heap Model_Solver Model_Preproc Model_Container Model_Pareto Model_Fairness.
Import ListNotations.
Local Open Scope nat_scope.

(** The further operations of a partially ordered task: DominatesInv, worst, Subtract,
    CalcDiff, Merge, MergeInv, ExtremePoints, GetWorstPerLabel times a number, and
    RelaxRootSolution ([None]: no constraint).  For the modelled tasks terminal_filter is true
    exactly when there is a constraint. *)
Record ftask := FTask {
  ft_p : ptask;
  ft_inv : pt_S ft_p -> pt_S ft_p -> bool;
  ft_worst : pt_S ft_p;
  ft_sub : pt_S ft_p -> pt_S ft_p -> pt_S ft_p;
  ft_diff : pt_S ft_p -> pt_S ft_p -> Z;
  ft_merge : pt_S ft_p -> pt_S ft_p -> pt_S ft_p;
  ft_minv : pt_S ft_p -> pt_S ft_p -> pt_S ft_p;
  ft_ext : list (pt_S ft_p);
  ft_wpl : nat -> nat -> pt_S ft_p;
  ft_relax : option (pt_S ft_p -> pt_S ft_p) }.

(** solver.h:25-44: the switches; [fc_max] is UB_LB_max_size, 12 in the code. *)
Record fcfg := FCfg {
  fc_p : pcfg; fc_nf : nat; fc_ub : bool; fc_lb : bool; fc_term : bool; fc_sim : bool;
  fc_branch : bool; fc_data : bool; fc_max : nat }.

Section Front.
  Context (T : ftask) (G : fcfg).
  Notation P := (ft_p T).
  Notation V := (pt_S P).
  Notation sol := (csol V ptag).
  Notation front := (cont V ptag).
  Notation eqb := (pt_eqb P).
  Notation nf := (fc_nf G).
  Notation mls := (pc_mls (fc_p G)).

  (** ** Operations on fronts (container.h, optimization_utils.h) *)

  (** node.h:13-17: a node with a value only. *)
  Definition f_val (s : V) : sol := Csol s 0 (PTag None None 0 0).

  (** optimization_utils.h:22-39: InitializeLB. *)
  Definition f_lb0 : front := Cont [f_val (pt_best P)] [].

  (** optimization_utils.h:68-76: CheckEmptySol. *)
  Definition f_empty (c : front) : bool := match ct_sols c with [] => true | _ => false end.

  (** container.h:21, 24, 44-50: Add and AddInv of a node or of a container. *)
  Definition f_add (c : front) (x : sol) : front := ct_add eqb (pt_dom P) (pt_unique P) c x.
  Definition f_add_inv (c : front) (x : sol) : front := ct_add eqb (ft_inv T) (pt_unique P) c x.
  Definition f_adds (c d : front) : front := fold_left f_add (ct_sols d) c.
  Definition f_adds_inv (c d : front) : front := fold_left f_add_inv (ct_sols d) c.

  (** container.h:33-42, 53-62: the merging variants with the maximum size; the error of an
      empty vector (maximum size 0) does not arise. *)
  Definition f_or (c : front) (o : option front) : front := match o with Some d => d | None => c end.
  Definition f_add_or_merge (c : front) (x : sol) : front :=
    f_or c (ct_add_or_merge eqb (pt_dom P) (ft_diff T) (ft_merge T) (fc_max G) c x).
  Definition f_add_or_minv (c : front) (x : sol) : front :=
    f_or c (ct_add_or_merge eqb (pt_dom P) (ft_diff T) (ft_minv T) (fc_max G) c x).
  Definition f_addinv_or_merge (c : front) (x : sol) : front :=
    f_or c (ct_add_or_merge eqb (ft_inv T) (ft_diff T) (ft_merge T) (fc_max G) c x).
  Definition f_addinv_or_minv (c : front) (x : sol) : front :=
    f_or c (ct_add_or_merge eqb (ft_inv T) (ft_diff T) (ft_minv T) (fc_max G) c x).

  (** container.h:104-109, optimization_utils.h:235-242: a front strictly dominates a node. *)
  Definition f_sdom_sol (c : front) (x : sol) : bool := ct_sdominates eqb (pt_dom P) c x.

  (** optimization_utils.h:263-273: LeftStrictDominatesRight on containers. *)
  Definition f_sdom (l r : front) : bool := forallb (fun x => ct_sdominates eqb (ft_inv T) r x) (ct_sols l).

  (** optimization_utils.h:278-293: SolutionsEqual: same length, not empty, equal in order. *)
  Fixpoint all_eq (xs ys : list sol) : bool :=
    match xs, ys with
    | [], [] => true
    | x :: xs', y :: ys' => eqb (cs_val x) (cs_val y) && all_eq xs' ys'
    | _, _ => false
    end.
  Definition f_eq (l r : front) : bool :=
    if f_empty l || f_empty r then false else all_eq (ct_sols l) (ct_sols r).

  (** optimization_utils.h:164-177: AddRootRelaxSols. *)
  Definition f_relax (b : branch) (ub c : front) : front :=
    match ft_relax T with
    | Some g => if br_depth b =? 0
                then fold_left (fun u x => f_add u (Csol (g (cs_val x)) (cs_nodes x) (cs_tag x))) (ct_sols c) ub
                else ub
    | None => ub
    end.

  (** ** Caches *)

  (** cache_entry.h:59-63: [None] is the null pointer. *)
  Record fentry := FEntry { fe_opt : option front; fe_lb : front; fe_d : nat; fe_n : nat }.

  (** cache_entry.h:53: IsOptimal. *)
  Definition fe_is_opt (e : fentry) : bool := match fe_opt e with Some c => negb (f_empty c) | None => false end.
  Definition fe_is (d n : nat) (e : fentry) : bool := (fe_n e =? n) && (fe_d e =? d).

  (** cache_entry.h:14-20, 22-29, 39-51. *)
  Definition fe_new (d n : nat) : fentry := FEntry None f_lb0 d n.
  Definition fe_with (d n : nat) (c : front) : fentry := FEntry (Some c) c d n.
  Definition fe_upd_lb (e : fentry) (lb : front) : fentry :=
    FEntry (fe_opt e) (f_adds_inv (fe_lb e) lb) (fe_d e) (fe_n e).

  (** branch_cache.cpp:10-24, dataset_cache.cpp:17-33. *)
  Definition fes_is_optimal (es : list fentry) (d n : nat) : bool :=
    match find (fe_is d n) es with Some e => fe_is_opt e | None => false end.
  (** branch_cache.cpp:130-144, dataset_cache.cpp:116-130: the copy has no map. *)
  Definition fes_retrieve (es : list fentry) (d n : nat) : front :=
    match find (fun e => fe_is d n e && fe_is_opt e) es with
    | Some e => match fe_opt e with Some c => ct_clear c | None => ct_new end
    | None => ct_new end.
  (** branch_cache.cpp:26-92, dataset_cache.cpp:35-108: for containers sol_num_nodes is the
      node budget, so exactly one budget is written ([d <= n]). *)
  Definition fes_store (es : list fentry) (c : front) (d n : nat) : list fentry :=
    if existsb (fe_is d n) es
    then map (fun e => if fe_is d n e && negb (fe_is_opt e) then FEntry (Some c) (if f_empty c then fe_lb e else c) d n else e) es
    else es ++ [fe_with d n c].
  (** branch_cache.cpp:146-180 ([guard]), dataset_cache.cpp:132-165. *)
  Fixpoint fes_upd_lb (guard : bool) (es : list fentry) (lb : front) (d n : nat) : list fentry :=
    match es with
    | [] => [fe_upd_lb (fe_new d n) lb]
    | e :: r => if fe_is d n e
                then (if guard && fe_is_opt e then e else fe_upd_lb e lb) :: r
                else e :: fes_upd_lb guard r lb d n
    end.
  (** branch_cache.cpp:182-209, dataset_cache.cpp:168-195: RetrieveLowerBound. *)
  Definition fes_lb (es : list fentry) (d n : nat) : front :=
    fold_left (fun best e =>
      if (n <=? fe_n e) && (d <=? fe_d e) && negb (f_empty (fe_lb e))
      then (if f_empty best then ct_clear (fe_lb e) else f_adds_inv best (fe_lb e))
      else best) es f_lb0.

  Section Assoc.
    Context {K : Type} (keqb : K -> K -> bool).
    Fixpoint flookup (k : K) (m : list (K * list fentry)) : option (list fentry) :=
      match m with
      | [] => None
      | (k', es) :: r => if keqb k k' then Some es else flookup k r
      end.
    Fixpoint fset (k : K) (es : list fentry) (m : list (K * list fentry)) : list (K * list fentry) :=
      match m with
      | [] => [(k, es)]
      | (k', es') :: r => if keqb k k' then (k', es) :: r else (k', es') :: fset k es r
      end.
    Definition fget (k : K) (m : list (K * list fentry)) : list fentry :=
      match flookup k m with Some es => es | None => [] end.
  End Assoc.

  (** cache.h: the two maps; [fk_n] is the number of instances (length of the keys). *)
  Record fcache := FCache { fk_n : nat; fk_branch : list (branch * list fentry); fk_data : list (list bool * list fentry) }.
  Definition kb_get (c : fcache) (b : branch) : list fentry := fget br_eqb b (fk_branch c).
  Definition kd_get (c : fcache) (v : view) : list fentry := fget bits_eqb (dkey (fk_n c) v) (fk_data c).
  Definition kb_set (c : fcache) (b : branch) (es : list fentry) : fcache :=
    FCache (fk_n c) (fset br_eqb b es (fk_branch c)) (fk_data c).
  Definition kd_set (c : fcache) (v : view) (es : list fentry) : fcache :=
    FCache (fk_n c) (fk_branch c) (fset bits_eqb (dkey (fk_n c) v) es (fk_data c)).

  (** cache.cpp:5-14. *)
  Definition k_is_optimal (c : fcache) (v : view) (b : branch) (d n : nat) : bool :=
    (fc_branch G && fes_is_optimal (kb_get c b) d n) || (fc_data G && fes_is_optimal (kd_get c v) d n).
  (** cache.cpp:16-21; SolClearTemp (branch_cache.cpp:30) empties the map of values. *)
  Definition k_store (c : fcache) (v : view) (b : branch) (x : front) (d n : nat) : fcache :=
    let x := ct_clear x in
    let c := if fc_branch G then kb_set c b (fes_store (kb_get c b) x d n) else c in
    if fc_data G then kd_set c v (fes_store (kd_get c v) x d n) else c.
  (** cache.cpp:23-35. *)
  Definition k_retrieve (c : fcache) (v : view) (b : branch) (d n : nat) : front :=
    let rb := if fc_branch G then fes_retrieve (kb_get c b) d n else ct_new in
    if f_empty rb then (if fc_data G then fes_retrieve (kd_get c v) d n else ct_new) else rb.
  (** cache.cpp:37-46; solver.cpp:248: no lower bounds are cached when they are off. *)
  Definition k_upd_lb (c : fcache) (v : view) (b : branch) (lb : front) (d n : nat) : fcache :=
    if fc_lb G then
      let c := if fc_branch G then kb_set c b (fes_upd_lb true (kb_get c b) lb d n) else c in
      if fc_data G then kd_set c v (fes_upd_lb false (kd_get c v) lb d n) else c
    else c.
  (** cache.cpp:48-60. *)
  Definition k_lb (c : fcache) (v : view) (b : branch) (d n : nat) : front :=
    if fc_lb G then
      let rb := if fc_branch G then fes_lb (kb_get c b) d n else ct_new in
      if f_empty rb
      then (let rd := if fc_data G then fes_lb (kd_get c v) d n else ct_new in if f_empty rd then f_lb0 else rd)
      else rb
    else f_lb0.
  (** branch_cache.cpp:94-128, cache.cpp:62-69: as in Model_Cache.v. *)
  Fixpoint ftransfer_one (src : fentry) (dst : list fentry) : bool * list fentry :=
    match dst with
    | [] => (true, [])
    | e :: r =>
      if fe_is (fe_d src) (fe_n src) e
      then if (fe_is_opt src && negb (fe_is_opt e)) || f_sdom (fe_lb src) (fe_lb e)
           then (false, src :: r)
           else let (_, r') := ftransfer_one src r in (false, e :: r')
      else let (a, r') := ftransfer_one src r in (a, e :: r')
    end.
  Definition ftransfer_step (dst : list fentry) (src : fentry) : list fentry :=
    let (add, dst') := ftransfer_one src dst in if add then dst' ++ [src] else dst'.
  Definition k_transfer (c : fcache) (bs bd : branch) : fcache :=
    if negb (fc_lb G) || br_eqb bs bd || negb (fc_branch G) then c
    else match flookup br_eqb bs (fk_branch c) with
         | None => c
         | Some src =>
           match flookup br_eqb bd (fk_branch c) with
           | None => kb_set c bd src
           | Some dst => if br_depth bs =? br_depth bd then kb_set c bd (fold_left ftransfer_step src dst) else c
           end
         end.

  (** ** The depth-two solver *)

  (** terminal_solver.h:20-38. *)
  Record fterm := FTerm { fm_one : front; fm_two : front; fm_three : front }.
  Definition fterm0 : fterm := FTerm ct_new ct_new ct_new.

  (** The part of a terminal solver that survives between calls: the data and the node budget
      of the last call (cost_combiner.h) and the results. *)
  Record ftstate := FTState { fz_data : option view; fz_nodes : option nat; fz_res : fterm }.

  (** terminal_solver.cpp: a node may be used in a place: the constraint and, for tasks with
      terminal_filter, the upper bound. *)
  Definition t_skip (ub : front) (x : sol) : bool :=
    match ft_relax T with Some _ => negb (pt_ok P (cs_val x)) || f_sdom_sol ub x | None => false end.
  Definition t_add (ub c : front) (x : sol) : front := if t_skip ub x then c else f_add c x.

  (** terminal_solver.cpp:16-21: the pairs of labels. *)
  Definition label_pairs (nl : nat) : list (nat * nat) :=
    filter (fun p => negb ((1 <? nl) && (fst p =? snd p))) (list_prod (seq 0 nl) (seq 0 nl)).

  (** The sum of two leaf costs. *)
  Definition two_leaves (a b : view) (p : nat * nat) : V := pt_add P (pt_leaf P a (fst p)) (pt_leaf P b (snd p)).

  (** terminal_solver.cpp:158-206: SolveOneNode; returns the solutions and the upper bound. *)
  Definition t_one (v : view) (ub : front) : front * front :=
    let nl := num_labels v in
    let leaves := fold_left (fun c l => t_add ub c (p_leaf P l (pt_leaf P v l))) (seq 0 nl) ct_new in
    fold_left (fun p f =>
      if negb (pt_may P f) || (vsize (split_left f v) <? mls) || (vsize (split_right f v) <? mls) then p
      else fold_left (fun q la =>
             let x := p_branch P f (two_leaves (split_left f v) (split_right f v) la) 0 0 in
             if t_skip (snd q) x then q else (f_add (fst q) x, f_add (snd q) x)) (label_pairs nl) p)
      (seq 0 nf) (leaves, ub).

  (** terminal_solver.cpp:53-64: the features that are considered. *)
  Definition t_features (v : view) (b : branch) : list nat :=
    filter (fun f => pt_may P f && negb (br_has b f)
      && (mls <=? vsize (split_left f v)) && (mls <=? vsize (split_right f v))
      && negb ((vsize (split_left f v) <? 2 * mls) && (vsize (split_right f v) <? 2 * mls))) (seq 0 nf).

  (** The four cells of a pair of features. *)
  Definition cell00 (v : view) (f1 f2 : nat) : view := split_left f2 (split_left f1 v).
  Definition cell01 (v : view) (f1 f2 : nat) : view := split_right f2 (split_left f1 v).
  Definition cell10 (v : view) (f1 f2 : nat) : view := split_left f2 (split_right f1 v).
  Definition cell11 (v : view) (f1 f2 : nat) : view := split_right f2 (split_right f1 v).

  (** terminal_solver.cpp:224-241: a child assignment is added. *)
  Definition t_child (ub : front) (a b : view) (f : nat) (c : front) : front :=
    if (mls <=? vsize a) && (mls <=? vsize b)
    then fold_left (fun c la => t_add ub c (p_branch P f (two_leaves a b la) 0 0)) (label_pairs (num_labels a)) c
    else c.

  (** The child assignments of every feature (children_info). *)
  Definition kids := nat -> front * front.
  Definition kids_set (k : kids) (f : nat) (p : front * front) : kids := fun g => if g =? f then p else k g.

  (** terminal_solver.cpp:74-145: one pair of features.  The test at 80-85 skips pairs none of
      whose children is large enough, for which nothing would be added anyway. *)
  Definition t_pair (v : view) (ub : front) (f1 : nat) (k : kids) (f2 : nat) : kids :=
    let k := kids_set k f1 (t_child ub (cell00 v f1 f2) (cell01 v f1 f2) f2 (fst (k f1)), snd (k f1)) in
    let k := kids_set k f1 (fst (k f1), t_child ub (cell10 v f1 f2) (cell11 v f1 f2) f2 (snd (k f1))) in
    let k := kids_set k f2 (t_child ub (cell00 v f1 f2) (cell10 v f1 f2) f1 (fst (k f2)), snd (k f2)) in
    kids_set k f2 (fst (k f2), t_child ub (cell01 v f1 f2) (cell11 v f1 f2) f1 (snd (k f2))).

  (** terminal_solver.cpp:326-349: Merge: by the number of nodes of the combination. *)
  Definition t_merge (ub : front) (f : nat) (l r : front) (R : fterm) : fterm :=
    fold_left (fun R p =>
      let x := p_combine P f (fst p) (snd p) in
      if t_skip ub x then R
      else match cs_nodes x with
           | 2 => FTerm (fm_one R) (f_add (fm_two R) x) (fm_three R)
           | 3 => FTerm (fm_one R) (fm_two R) (f_add (fm_three R) x)
           | _ => R
           end) (list_prod (ct_sols l) (ct_sols r)) R.

  (** terminal_solver.cpp:244-305: UpdateBestTwoNodeAssignment, and 307-324:
      UpdateBestThreeNodeAssignment. *)
  Definition t_leaves (ub : front) (v : view) : front :=
    if mls <=? vsize v
    then fold_left (fun c l => t_add ub c (p_leaf P l (pt_leaf P v l))) (seq 0 (num_labels v)) ct_new
    else ct_new.
  Definition t_root (v : view) (ub : front) (f : nat) (k : kids) (R : fterm) : fterm :=
    let R := t_merge ub f (fst (k f)) (t_leaves ub (split_right f v)) R in
    let R := t_merge ub f (t_leaves ub (split_left f v)) (snd (k f)) R in
    t_merge ub f (fst (k f)) (snd (k f)) R.

  (** terminal_solver.cpp:70-149: the loop over the first feature, left when a solution
      without costs was found with three nodes. *)
  Fixpoint t_loop (v : view) (ub : front) (fs : list nat) (k : kids) (R : fterm) : fterm :=
    match fs with
    | [] => R
    | f :: r => if f_eq f_lb0 (fm_three R) then R
                else let k := fold_left (t_pair v ub f) r k in t_loop v ub r k (t_root v ub f k R)
    end.

  (** terminal_solver.cpp:34-155: the computation of the results for new data. *)
  Definition t_compute (v : view) (b : branch) (ub : front) (n : nat) : fterm * front :=
    if vsize v <? mls then (fterm0, ub)
    else
      let '(one, ub) := t_one v ub in
      let R := FTerm one ct_new ct_new in
      if n =? 1 then (R, ub)
      else
        let R := if f_eq f_lb0 one then R else t_loop v ub (t_features v b) (fun _ => (ct_new, ct_new)) R in
        let two := f_adds (fm_two R) one in
        (FTerm one two (f_adds (fm_three R) two), ub).

  (** cost_combiner.cpp:13-41 (Initialize): the data are the same as in the last call, and the
      node budget too for tasks with terminal_filter. *)
  Definition t_same (z : ftstate) (v : view) (n : nat) : bool :=
    match fz_data z with
    | None => false
    | Some old =>
      Bool.eqb (n =? 1) (match fz_nodes z with Some m => m =? 1 | None => false end)
      && (vsize (diff_add old v) =? 0) && (vsize (diff_remove old v) =? 0)
      && (match ft_relax T with None => true | Some _ => match fz_nodes z with Some m => n =? m | None => false end end)
    end.

  (** terminal_solver.cpp:25-33: Solve: nothing is computed for the same data. *)
  Definition t_solve (z : ftstate) (v : view) (b : branch) (ub : front) (n : nat) : fterm * front * ftstate :=
    if t_same z v n then (fz_res z, ub, z)
    else let '(R, ub) := t_compute v b ub n in (R, ub, FTState (Some v) (Some n) R).

  (** cost_combiner.cpp:71-75: ProbeDifference. *)
  Definition t_probe (z : ftstate) (v : view) : Z :=
    match fz_data z with Some old => Z.of_nat (total_difference (diff_metrics old v)) | None => (-1)%Z end.

  (** terminal_solver.cpp:360-484: ConstructOptimalTree: the candidates for one child with
      their trees, then the first pair with the right sum.  [None]: exception. *)
  Definition t_leaf_cand (s : V) (v : view) : list (V * tree) :=
    flat_map (fun l => let x := pt_leaf P v l in
                       if pt_dom P s x && negb (eqb s x) then [] else [(x, Leaf l)]) (seq 0 (num_labels v)).
  Definition t_split_cand (s : V) (root : nat) (v : view) : list (V * tree) :=
    flat_map (fun f =>
      if (f =? root) || (vsize (split_left f v) <? mls) || (vsize (split_right f v) <? mls) then []
      else flat_map (fun la => let x := two_leaves (split_left f v) (split_right f v) la in
                               if pt_dom P s x && negb (eqb s x) then [] else [(x, Split f (Leaf (fst la)) (Leaf (snd la)))])
                    (list_prod (seq 0 (num_labels v)) (seq 0 (num_labels v)))) (seq 0 nf).
  Definition t_cand (s : V) (root a : nat) (v : view) : list (V * tree) :=
    if a =? 0 then t_leaf_cand s v else t_split_cand s root v.
  Definition t_construct (x : sol) (v : view) : option tree :=
    match pg_feat (cs_tag x) with
    | None => None
    | Some f =>
      match find (fun p => eqb (cs_val x) (pt_add P (fst (fst p)) (fst (snd p))))
                 (list_prod (t_cand (cs_val x) f (pg_l (cs_tag x)) (split_left f v))
                            (t_cand (cs_val x) f (pg_r (cs_tag x)) (split_right f v))) with
      | Some p => Some (Split f (snd (fst p)) (snd (snd p)))
      | None => None
      end
    end.

  (** ** The state of the solver *)
  Record fstate := FState { fs_k : fcache; fs_ar : nat -> list (view * branch); fs_t1 : ftstate; fs_t2 : ftstate }.
  Definition fset_k (s : fstate) (k : fcache) : fstate := FState k (fs_ar s) (fs_t1 s) (fs_t2 s).

  (** ** Bounds *)

  (** solver.cpp:624-637: ComputeLowerBound (no custom lower bound, no constant cost per node). *)
  Definition f_compute_lb (s : fstate) (v : view) (b : branch) (d n : nat) : front :=
    if fc_lb G then f_adds_inv f_lb0 (k_lb (fs_k s) v b d n) else f_lb0.

  (** solver.cpp:732-762: LBMerge. *)
  Definition f_lb_merge (f : nat) (l r : front) : front :=
    if f_empty l || f_empty r then f_lb0
    else
      let small c := if fc_max G <? length (ct_sols c) then fold_left f_addinv_or_merge (ct_sols c) ct_new else c in
      fold_left (fun c p => f_add c (p_combine P f (fst p) (snd p))) (list_prod (ct_sols (small l)) (ct_sols (small r))) f_lb0.

  (** solver.cpp:679-700: ComputeLeftRightLowerBound. *)
  Definition f_lr_lb (s : fstate) (f : nat) (lv : view) (lbr : branch) (ld ls : nat) (rv : view) (rbr : branch) (rd rs : nat) : front * front * front :=
    if fc_lb G then
      let l := f_compute_lb s lv lbr ld ls in
      let r := f_compute_lb s rv rbr rd rs in
      (f_lb_merge f l r, l, r)
    else (f_lb0, f_lb0, f_lb0).

  (** All pairs of two different positions of a list, the earlier one first. *)
  Fixpoint pairs_of {A} (l : list A) : list (A * A) :=
    match l with [] => [] | x :: r => map (fun y => (x, y)) r ++ pairs_of r end.

  (** solver.cpp:781-868: SubtractUBs for partial orders. *)
  Definition f_subtract (b : branch) (ub sols cur : front) : front :=
    if negb (fc_ub G) then ct_clear ub
    else if f_empty sols then f_relax b (ct_clear ub) cur
    else
      let ubr := if fc_max G <=? length (ct_sols ub) then fold_left f_add_or_minv (ct_sols ub) ct_new else ub in
      let ss := if fc_max G <=? length (ct_sols sols) then fold_left f_add_or_merge (ct_sols sols) ct_new else sols in
      let ext := map f_val (ft_ext T) in
      let step (p : front * front) (y : sol) : front * front :=
        let sub := fold_left (fun c x => f_add c (f_val (ft_sub T (cs_val x) (cs_val y)))) (ct_sols ubr) ct_new in
        let sub := fold_left f_add ext sub in
        let corners := fold_left (fun c p => f_add c (f_val (ft_minv T (cs_val (fst p)) (cs_val (snd p))))) (pairs_of (ct_sols sub)) ct_new in
        (f_adds_inv (fst p) corners, f_adds_inv (snd p) sub) in
      let '(corner, subu) := fold_left step (ct_sols ss) (ct_new, ct_new) in
      let corner := fold_left f_add ext corner in
      let upd := fold_left (fun c p => f_addinv_or_minv c (f_val (ft_merge T (cs_val (fst p)) (cs_val (snd p))))) (pairs_of (ct_sols corner)) ct_new in
      let upd := fold_left f_addinv_or_minv (ct_sols subu) upd in
      f_relax b upd cur.

  (** solver.cpp:879-884: UpdateUB. *)
  Definition f_upd_ub (ub : front) (x : sol) : front := if fc_ub G then f_add ub x else ub.

  (** solver.cpp:598-622: SolveLeafNode: the solutions and the upper bound. *)
  Definition f_try (b : branch) (p : front * front) (x : sol) : front * front :=
    if negb (pt_ok P (cs_val x)) || (fc_ub G && f_sdom_sol (snd p) x) then p
    else (p_add P b (fst p) x, f_upd_ub (snd p) x).
  Definition f_leaf (v : view) (b : branch) (ub : front) : front * front :=
    if p_mls (fc_p G) v 1
    then fold_left (fun p l => f_try b p (p_leaf P l (pt_leaf P v l))) (seq 0 (num_labels v)) (ct_new, ub)
    else (ct_new, ub).

  (** ** The similarity bound *)

  (** similarity_lowerbound.cpp:17-31: SubstractLB. *)
  Definition f_sub_lb (lb : front) (s : V) : front :=
    fold_left f_add (map (fun x => Csol (ft_sub T (cs_val x) s) (cs_nodes x) (cs_tag x)) (ct_sols lb)) ct_new.
  (** similarity_lowerbound.cpp:62-64: the amount to subtract. *)
  Definition f_sim_sub (nl : nat) (m : list (nat * nat)) : V :=
    fold_left (fun a k => pt_add P a (ft_wpl T k (snd (nth k m (0, 0))))) (seq 1 (nl - 1)) (ft_wpl T 0 (snd (nth 0 m (0, 0)))).
  (** similarity_lowerbound.cpp:34-81: the loop over the archive. *)
  Fixpoint f_sim_loop (ar : list (view * branch)) (v : view) (b : branch) (d n : nat) (c : fcache) (lb : front) : front * bool * fcache :=
    match ar with
    | [] => (lb, false, c)
    | (ev, eb) :: r =>
      if 3 * vsize v <? 2 * vsize ev then f_sim_loop r v b d n c lb
      else
        let m := diff_metrics ev v in
        if vsize v <? 2 * num_removals m then f_sim_loop r v b d n c lb
        else
          let e := f_sub_lb (k_lb c ev eb d n) (f_sim_sub (num_labels v) m) in
          if total_difference m =? 0 then
            let c' := k_transfer c eb b in
            if k_is_optimal c' v b d n then (e, true, c') else f_sim_loop r v b d n c' (f_adds_inv lb e)
          else f_sim_loop r v b d n c (f_adds_inv lb e)
    end.
  (** solver.cpp:1116-1128: UpdateCacheUsingSimilarity. *)
  Definition f_update_sim (s : fstate) (v : view) (b : branch) (d n : nat) : bool * fstate :=
    if fc_sim G then
      let '(lb, opt, c) := f_sim_loop (fs_ar s d) v b d n (fs_k s) f_lb0 in
      let s := fset_k s c in
      if f_empty lb then (false, s)
      else if opt then (true, s)
      else if f_eq f_lb0 lb then (false, s)
      else (false, fset_k s (k_upd_lb (fs_k s) v b lb d n))
    else (false, s).
  (** similarity_lowerbound.cpp:84-94: UpdateArchive. *)
  Definition f_archive (s : fstate) (v : view) (b : branch) (d : nat) : fstate :=
    if fc_sim G then
      let ar := fs_ar s d in
      let ar' := if length ar <? 2 then ar ++ [(v, b)] else set_nth (Model_Solver.most_similar v 0 ar None) (v, b) ar in
      FState (fs_k s) (fun d' => if d' =? d then ar' else fs_ar s d') (fs_t1 s) (fs_t2 s)
    else s.

  (** ** The search *)

  (** solver.cpp:556-582: one of the three results is stored. *)
  Definition f_store_term (c : fcache) (v : view) (b : branch) (ub x : front) (d n : nat) : fcache :=
    if k_is_optimal c v b d n then c
    else if f_empty x then k_upd_lb c v b ub d n else k_store c v b x d n.

  (** solver.cpp:533-596: SolveTerminalNode.  The terminal solver changes the upper bound. *)
  Definition f_terminal (v : view) (b : branch) (ub : front) (d n : nat) (s : fstate) : front * fstate :=
    let first := (t_probe (fs_t1 s) v <? t_probe (fs_t2 s) v)%Z in
    let '(R, ub, z) := t_solve (if first then fs_t1 s else fs_t2 s) v b ub n in
    let c := f_store_term (fs_k s) v b ub (fm_one R) 1 1 in
    let c := f_store_term c v b ub (fm_two R) 2 2 in
    let c := f_store_term c v b ub (fm_three R) 2 3 in
    let s := FState c (fs_ar s) (if first then z else fs_t1 s) (if first then fs_t2 s else z) in
    let s := f_archive s v b d in
    let res := match n with 1 => fm_one R | 2 => fm_two R | _ => fm_three R end in
    (if f_sdom ub res then ct_new else ct_clear res, s).

  (** The variables of SolveSubTreeGeneralCase that change in its loops. *)
  Record floop := FLoop { fl_ub : front; fl_sols : front; fl_inf : front; fl_st : fstate }.
  Definition fl_infeasible (L : floop) (lb : front) (s : fstate) : floop := FLoop (fl_ub L) (fl_sols L) (f_adds (fl_inf L) lb) s.

  (** The recursive call SolveSubTree returns the solutions, the upper bound as it is changed
      through the shared pointer UB_ (solver.cpp:337) and the state. *)
  Definition fsolver := view -> branch -> front -> nat -> nat -> fstate -> front * front * fstate.

  (** solver.cpp:702-730: Merge: the solutions and the upper bound. *)
  Definition f_merge (b : branch) (f : nat) (l r : front) (p : front * front) : front * front :=
    fold_left (fun p q => f_try b p (p_combine P f (fst q) (snd q))) (list_prod (ct_sols l) (ct_sols r)) p.

  (** solver.cpp:441-503: one distribution of the nodes. *)
  Definition f_size_step (rec : fsolver) (b : branch) (d n f : nat) (swap : bool)
             (lv : view) (lbr : branch) (rv : view) (rbr : branch) (L : floop) (ls : nat) : floop :=
    let rs := n - ls - 1 in
    let ld := Nat.min (d - 1) ls in
    let rd := Nat.min (d - 1) rs in
    let '(lb, llb, rlb) := f_lr_lb (fl_st L) f lv lbr ld ls rv rbr rd rs in
    if fc_ub G && f_sdom (fl_ub L) lb then fl_infeasible L lb (fl_st L)
    else if f_eq lb (fl_sols L) then L
    else
      let '(l, _, s1) := rec lv lbr (f_subtract b (fl_ub L) rlb (fl_sols L)) ld ls (fl_st L) in
      if f_empty l
      then let '(lb, _, _) := f_lr_lb s1 f lv lbr ld ls rv rbr rd rs in fl_infeasible L lb s1
      else
        let '(r, _, s2) := rec rv rbr (f_subtract b (fl_ub L) l (fl_sols L)) rd rs s1 in
        if f_empty r
        then let '(lb, _, _) := f_lr_lb s2 f lv lbr ld ls rv rbr rd rs in fl_infeasible L lb s2
        else
          let '(sols, ub) := if swap then f_merge b f r l (fl_sols L, fl_ub L) else f_merge b f l r (fl_sols L, fl_ub L) in
          FLoop ub sols (fl_inf L) s2.

  (** solver.cpp:404-505: one feature. *)
  Definition f_feature_step (rec : fsolver) (v : view) (b : branch) (d n f : nat) (L : floop) : floop :=
    if br_has b f || negb (pt_may P f) || pc_redundant (fc_p G) f then L
    else
      let lv := split_left f v in
      let rv := split_right f v in
      if negb (p_mls (fc_p G) lv 1) || negb (p_mls (fc_p G) rv 1) then L
      else
        let sizes := seq (p_min_size d n) (S (p_max_size d n) - p_min_size d n) in
        if vsize lv <? vsize rv
        then fold_left (f_size_step rec b d n f true rv (br_right b f) lv (br_left b f)) sizes L
        else fold_left (f_size_step rec b d n f false lv (br_left b f) rv (br_right b f)) sizes L.

  (** solver.cpp:389-507: the loop over the features. *)
  Fixpoint f_feature_loop (rec : fsolver) (v : view) (b : branch) (d n : nat) (blb : front) (L : floop) (fs : list nat) : floop :=
    match fs with
    | [] => L
    | f :: r =>
      if fc_lb G && f_eq blb (fl_sols L) then L
      else if fc_lb G && fc_ub G && f_sdom (fl_ub L) blb then L
      else f_feature_loop rec v b d n blb (f_feature_step rec v b d n f L) r
    end.

  (** solver.cpp:358-359: the largest smaller depth with a cached front, at the budget
      min(num_nodes, 1 << (lower_max_depth)-1), that is 2^(lower_max_depth - 1). *)
  Fixpoint f_lower_cached (c : fcache) (v : view) (b : branch) (n ld : nat) : option (nat * nat) :=
    match ld with
    | 0 => None
    | S ld' => if k_is_optimal c v b ld (Nat.min n (2 ^ ld')) then Some (ld, Nat.min n (2 ^ ld')) else f_lower_cached c v b n ld'
    end.

  (** solver.cpp:340-531: SolveSubTreeGeneralCase.  SolutionsEqual with an empty container is
      false (514), so the original upper bound is always added to the infeasible bound. *)
  Definition f_general (rec : fsolver) (v : view) (b : branch) (ub0 : front) (d n : nat) (s : fstate) : front * front * fstate :=
    let '(sols, ub) := f_leaf v b ub0 in
    if negb (p_mls (fc_p G) v 2) then (sols, ub, s)
    else
      let '(sols, ub) :=
        match f_lower_cached (fs_k s) v b n (d - 1) with
        | Some (ld, ln) =>
          fold_left (fun p x => if fc_ub G && f_sdom_sol (snd p) x then p else (p_add P b (fst p) x, f_upd_ub (snd p) x))
                    (ct_sols (k_retrieve (fs_k s) v b ld ln)) (sols, ub)
        | None => (sols, ub)
        end in
      let blb := f_compute_lb s v b d n in
      let L := f_feature_loop rec v b d n blb (FLoop ub sols ct_new s) (pc_order (fc_p G) v) in
      let c := fs_k (fl_st L) in
      let c := if f_empty (fl_sols L) then k_upd_lb c v b (f_adds_inv (fl_inf L) (ct_clear ub0)) d n
               else k_store c v b (fl_sols L) d n in
      (fl_sols L, fl_ub L, f_archive (fset_k (fl_st L) c) v b d).

  (** solver.cpp:277-338: SolveSubTree.  The depth-two solver gets a copy of the upper bound,
      the general case the bound of the caller.  [fuel] as in Model_Pareto.v. *)
  Fixpoint f_search (fuel : nat) (v : view) (b : branch) (ub0 : front) (d n : nat) (s : fstate) : front * front * fstate :=
    match fuel with
    | 0 => (fst (f_leaf v b (ct_clear ub0)), ub0, s)
    | S fuel =>
      if (d =? 0) || (n =? 0) then (fst (f_leaf v b (ct_clear ub0)), ub0, s)
      else
        let cached := k_retrieve (fs_k s) v b d n in
        if negb (f_empty cached) then (cached, ub0, s)
        else
          let continue leaf s :=
            if fc_term G && (d <=? 2)
            then let ub := if fc_ub G then f_relax b (ct_clear ub0) leaf else ct_clear ub0 in
                 let '(r, s) := f_terminal v b ub d n s in (r, ub0, s)
            else f_general (f_search fuel) v b ub0 d n s in
          if fc_lb G then
            let '(upd, s) := f_update_sim s v b d n in
            let cached := k_retrieve (fs_k s) v b d n in
            if upd && negb (f_empty cached) then (cached, ub0, s)
            else
              let lb := f_compute_lb s v b d n in
              if fc_ub G && f_sdom ub0 lb then (ct_new, ub0, s)
              else
                let leaf := fst (f_leaf v b ct_new) in
                if f_eq lb leaf then (leaf, ub0, s) else continue leaf s
          else continue ct_new s
    end.

  (** ** Rebuilding the tree *)

  (** solver.cpp:1062-1070, 1073-1081: the first cached front of a child of growing size. *)
  Fixpoint f_scan (s : fstate) (v : view) (b : branch) (dm : nat) (ub : front) (sizes : list nat) : option (front * nat) * front :=
    match sizes with
    | [] => (None, ub)
    | k :: r =>
      let '(c, ub) := if k =? 0 then f_leaf v b ub else (k_retrieve (fs_k s) v b (Nat.min dm k) k, ub) in
      if f_empty c then f_scan s v b dm ub r else (Some (c, k), ub)
    end.

  (** solver.cpp:1025-1102: the front of one child with its depth and size; [a] nodes are used
      by the solution.  The front of the worst value is the upper bound. *)
  Definition f_child (v : view) (b : branch) (d n a : nat) (s : fstate) : (front * nat * nat) * fstate :=
    let from := Nat.max a (p_min_size d n) in
    let use := fc_branch G || fc_data G in
    let '(found, ub) := if use then f_scan s v b (d - 1) (f_add ct_new (f_val (ft_worst T))) (seq from (S (p_max_size d n) - from))
                        else (None, f_add ct_new (f_val (ft_worst T))) in
    let kept := match found with Some (c, _) => ct_filter from c | None => ct_new end in
    let size := match found with Some (_, k) => k | None => if use then Nat.max from (S (p_max_size d n)) else a end in
    if f_empty kept then
      let cd := Nat.min (d - 1) a in
      let '(c, ub, s) := f_search (S cd) v b ub cd a s in
      let '(c, s) := if f_empty c then let '(c, _, s) := f_search (S cd) v b ub cd a s in (c, s) else (c, s) in
      ((ct_filter a c, cd, size), s)
    else ((kept, Nat.min (d - 1) size, size), s).

  (** solver.cpp:993-1114: ConstructOptimalTree.  [None]: a leaf without a label. *)
  Fixpoint f_construct (fuel : nat) (x : sol) (v : view) (b : branch) (d0 n0 : nat) (s : fstate) : option tree * fstate :=
    let d := Nat.min d0 n0 in
    let n := Nat.min n0 (2 ^ d - 1) in
    if (d =? 0) || (n =? 0) || (cs_nodes x =? 0)
    then (match pg_lab (cs_tag x) with Some l => Some (Leaf l) | None => None end, s)
    else
      let d1 := (d =? 1) || (n =? 1) || (cs_nodes x =? 1) in
      let two := fc_term G && negb d1 && (d <=? 2) in
      (* terminal_solver.cpp:362, cost_combiner.cpp:43-52: the data are forgotten *)
      let s := if two then FState (fs_k s) (fs_ar s) (FTState None (fz_nodes (fs_t1 s)) (fz_res (fs_t1 s))) (fs_t2 s) else s in
      match (if two then t_construct x v else None) with
      | Some t => (Some t, s)
      | None =>
        match fuel, pg_feat (cs_tag x) with
        | S fuel, Some f =>
          let lv := split_left f v in
          let rv := split_right f v in
          let '(lc, s) := f_child lv (br_left b f) d n (pg_l (cs_tag x)) s in
          let '(rc, s) := f_child rv (br_right b f) d n (pg_r (cs_tag x)) s in
          let '(ls, ld, lk) := lc in
          let '(rs, rd, rk) := rc in
          match p_find_pair P (cs_val x) ls rs with
          | None => (None, s)
          | Some (l, r) =>
            let '(lt, s) := f_construct fuel l lv (br_left b f) ld lk s in
            let '(rt, s) := f_construct fuel r rv (br_right b f) rd rk s in
            (match lt, rt with Some a, Some c => Some (Split f a c) | _, _ => None end, s)
          end
        | _, _ => (None, s)
        end
      end.

  (** ** The outer loop *)

  (** solver.cpp:102-175: one search; the result uses the root comparator, the upper bound the
      ordinary one. *)
  Definition f_outer_step (v : view) (q : front * front * fstate) (p : nat * nat) : front * front * fstate :=
    let '(res, gub, s) := q in
    let '(c, gub, s) := f_search (S (fst p)) v [] gub (fst p) (snd p) s in
    (fold_left (p_add P []) (ct_sols c) res, f_adds gub c, s).

  Definition fstate0 (N : nat) : fstate :=
    FState (FCache N [] []) (fun _ => []) (FTState None None fterm0) (FTState None None fterm0).

  (** solver.cpp:79-175: Solve on a fresh solver up to the result. *)
  Definition f_solve (v : view) (depth nodes : nat) (all : bool) : front * front * fstate :=
    let '(res, gub) := f_leaf v [] ct_new in
    fold_left (f_outer_step v) (p_budgets depth nodes all) (res, gub, fstate0 (vsize v)).

  (** solver.cpp:196-204: one tree per solution. *)
  Definition f_trees (v : view) (depth nodes : nat) (all : bool) : list (sol * option tree) :=
    let '(res, _, s) := f_solve v depth nodes all in
    let mds := fst (last (p_budgets depth nodes all) (depth, 0)) in
    fst (fold_left (fun p x => let '(t, s) := f_construct mds x v [] mds nodes (snd p) in (fst p ++ [(x, t)], s))
                   (ct_sols res) ([], s)).
End Front.

(** f1score.h:28-116: F1-score. *)
Definition f1_sub (a b : f1) : f1 := F1 (Z.max 0 (f1_fn a - f1_fn b)) (Z.max 0 (f1_fp a - f1_fp b)).
Definition int_max : Z := 2147483647.
Definition f1_ftask (rnd : Q -> Q) (pos : Z) : ftask :=
  FTask (f1_task rnd pos) f1_dom_inv (F1 int_max int_max) f1_sub f1_diff f1_merge f1_merge_inv
        [F1 0 int_max; F1 int_max 0]
        (fun l k => if l =? 0 then F1 0 (Z.of_nat k) else F1 (Z.of_nat k) 0) None.

(** group_fairness.h:34-60, 86-157, eq_opp.h:34-60, 86-157: the further operations; group
    scores are numerators over G0*G1.  GetWorstPerLabel(0) differs between the tasks. *)
Section Fair.
  Context (eo : bool) (n G0 G1 : Z) (lim : Q).
  Definition fs_inv (a b : fsol) : bool :=
    (fs_mis b <=? fs_mis a)%Z && (10000 * fs_g0 b <=? 10000 * fs_g0 a + G0 * G1)%Z && (10000 * fs_g1 b <=? 10000 * fs_g1 a + G0 * G1)%Z.
  Definition fs_sub (a b : fsol) : fsol :=
    FSol (Z.max 0 (fs_mis a - fs_mis b)) (Z.max 0 (fs_g0 a - fs_g0 b)) (Z.max 0 (fs_g1 a - fs_g1 b)) false.
  Definition fs_diff (a b : fsol) : Z :=
    ((fs_mis a - fs_mis b) * (fs_mis a - fs_mis b) * (G0 * G1) + 100 * Z.abs (fs_g0 a - fs_g0 b) + 100 * Z.abs (fs_g1 a - fs_g1 b))%Z.
  Definition fs_merge (a b : fsol) : fsol := FSol (Z.min (fs_mis a) (fs_mis b)) (Z.min (fs_g0 a) (fs_g0 b)) (Z.min (fs_g1 a) (fs_g1 b)) false.
  Definition fs_minv (a b : fsol) : fsol := FSol (Z.max (fs_mis a) (fs_mis b)) (Z.max (fs_g0 a) (fs_g0 b)) (Z.max (fs_g1 a) (fs_g1 b)) false.
  Definition fair_ftask : ftask :=
    FTask (fair_task eo n G0 G1 lim) fs_inv (FSol int_max (int_max * (G0 * G1)) (int_max * (G0 * G1)) false) fs_sub fs_diff fs_merge fs_minv
          [FSol int_max 0 0 false; FSol 0 (G0 * G1) 0 false; FSol 0 0 (G0 * G1) false]
          (fun l k => let m := Z.of_nat k in
                      if l =? 0 then (if eo then FSol m 0 0 false else FSol m (m * G1) (m * G0) false) else FSol m (m * G0) (m * G1) false)
          (Some (fun s => FSol (fs_mis s) (fs_g0 s) (fs_g1 s) true)).
End Fair.

(** The switches a caller can set (parameters use-upper-bound, use-lower-bound,
    use-terminal-solver, use-similarity-lower-bound, use-branch-caching, use-dataset-caching,
    feature-ordering and min-leaf-node-size). *)
Record fswitches := FSwitches {
  fw_ub : bool; fw_lb : bool; fw_term : bool; fw_sim : bool; fw_branch : bool; fw_data : bool; fw_gini : bool; fw_mls : nat }.
Definition mk_fcfg (W : fswitches) (nf : nat) (red : nat -> bool) : fcfg :=
  FCfg (PCfg (fw_mls W) red (if fw_gini W then order_gini nf else order_in nf)) nf
       (fw_ub W) (fw_lb W) (fw_term W) (fw_sim W) (fw_branch W) (fw_data W) 12.

(** solver.cpp:79-221: Solve on a fresh solver, with preprocessing and undone flips. *)
Definition f1_ffit (rnd : Q -> Q) (W : fswitches) (nf depth nodes : nat) (all : bool) (v : view) : list (csol f1 ptag * option tree) :=
  let '(fl, red, v') := preprocess acc (fw_mls W) nf v in
  map (fun p => (fst p, option_map (unflip fl) (snd p)))
      (f_trees (f1_ftask rnd (Z.of_nat (length (nth 1 v' [])))) (mk_fcfg W nf red) v' depth nodes all).
Definition fair_ffit (eo : bool) (lim : Q) (W : fswitches) (nf depth nodes : nat) (all : bool) (v : view) : list (csol fsol ptag * option tree) :=
  let '(fl, red, v') := preprocess fair_pre (fw_mls W) nf v in
  map (fun p => (fst p, option_map (unflip fl) (snd p)))
      (f_trees (fair_ftask eo (Z.of_nat (vsize v')) (group0_size eo v') (group1_size eo v') lim) (mk_fcfg W nf red) v' depth nodes all).
