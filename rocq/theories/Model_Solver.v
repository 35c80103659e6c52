(** Model of the search: similarity lower bound, recursive solver, tree reconstruction and
    the outer loop over depths.
    Sources: /repo/src/solver/solver.cpp, /repo/include/solver/solver.h,
    /repo/src/solver/similarity_lowerbound.cpp, /repo/include/utils/stopwatch.h,
    /repo/include/utils/utils.h. *)
From Coq Require Import List Arith Bool Lia ZArith.
From Verif Require Import Model_FeatureVector Model_Data Model_Node Model_Cache Model_Terminal.
Import ListNotations.
Local Open Scope nat_scope.

(** solver.h:25-38 (SolverParameters) and the values the solver reads from the parameters
    and from preprocessing.  subtract_ub is always true and cache_data_splits always false
    (solver.h:33-34).
    - [c_order v]: the order in which the feature selector pops the features of a view
      (feature_selector.h; "in-order" is [seq 0 nf], "gini" is modelled in Model_Heap.v);
    - [c_clk i]: the answer of the [i]-th reading of the clock. *)
Record cfg := Cfg {
  c_ub : bool; c_lb : bool; c_tlb : bool; c_term : bool; c_sim : bool;
  c_mls : nat; c_nf : nat;
  c_redundant : nat -> bool;
  c_order : view -> list nat;
  c_clk : nat -> bool }.

(** The mutable part of the solver.  [s_ar] is the archive of the similarity bound, one list
    per depth; [s_tick] counts the readings of the clock; [s_late] is set once a reading was
    past the limit (time does not run backwards); [s_on] is Stopwatch::enabled; [s_mdf] is
    max_depth_finished. [s_err] is not in the code: it records that the recursion fuel of
    the model ran out. *)
Record st := St {
  s_c : caches; s_ar : nat -> list (view * branch);
  s_tick : nat; s_late : bool; s_on : bool; s_mdf : nat; s_err : bool }.

Definition set_c (s : st) (c : caches) : st :=
  St c (s_ar s) (s_tick s) (s_late s) (s_on s) (s_mdf s) (s_err s).
Definition set_ar (s : st) (a : nat -> list (view * branch)) : st :=
  St (s_c s) a (s_tick s) (s_late s) (s_on s) (s_mdf s) (s_err s).
Definition set_on (s : st) (o : bool) : st :=
  St (s_c s) (s_ar s) (s_tick s) (s_late s) o (s_mdf s) (s_err s).
Definition set_mdf (s : st) (m : nat) : st :=
  St (s_c s) (s_ar s) (s_tick s) (s_late s) (s_on s) m (s_err s).
Definition set_err (s : st) : st :=
  St (s_c s) (s_ar s) (s_tick s) (s_late s) (s_on s) (s_mdf s) true.

Section WithTask.
  Context (T : task) (G : cfg).
  Notation nf := (c_nf G).

  (** stopwatch.h:33-35: IsWithinTimeLimit. *)
  Definition in_time (s : st) : bool * st :=
    if s_on s then
      let late := s_late s || negb (c_clk G (s_tick s)) in
      (negb late, St (s_c s) (s_ar s) (S (s_tick s)) late (s_on s) (s_mdf s) (s_err s))
    else (true, s).

  (** solver.cpp:1139-1154: SatisfiesMinimumLeafNodeSize (unweighted). *)
  Definition sat_mls (v : view) (mult : nat) : bool := c_mls G * mult <=? vsize v.

  (** solver.cpp:1130-1137: GetBranchingCosts. *)
  Definition get_bc (v : view) (b : branch) (f : nat) : Z :=
    match tk_bc T with Some g => g (vsize v) b f | None => 0%Z end.

  (** solver.cpp:879-884: UpdateUB. *)
  Definition upd_ub (ub sol : node) : node := if c_ub G then add_sol ub sol else ub.

  (** solver.cpp:598-622: SolveLeafNode (no custom leaf, no constraint).  Returns the result
      and the updated upper bound. *)
  Definition leaf_step (v : view) (p : node * node) (l : nat) : node * node :=
    let sol := leaf_node l (tk_leaf T v l) in
    if c_ub G && tk_sdom T (nd_sol (snd p)) (nd_sol sol) then p
    else (add_sol (fst p) sol, upd_ub (snd p) sol).
  Definition solve_leaf (v : view) (ub : node) : node * node :=
    if sat_mls v 1 then fold_left (leaf_step v) (seq 0 (num_labels v)) (init_sol T, ub)
    else (init_sol T, ub).

  (** solver.cpp:649-658 and 358-376: the largest lower depth with a cached optimum, at the
      budget min(num_nodes, 1 << (lower_max_depth)-1), that is 2^(lower_max_depth - 1). *)
  Fixpoint lower_cached (c : caches) (v : view) (b : branch) (n ld : nat) : option (nat * nat) :=
    match ld with
    | 0 => None
    | S ld' => if c_is_optimal c v b ld (Nat.min n (2 ^ ld'))
               then Some (ld, Nat.min n (2 ^ ld')) else lower_cached c v b n ld'
    end.

  (** solver.cpp:638-674: the part of ComputeLowerBound for tasks with a constant cost per
      node (expensive_leaf is false for the modelled task). *)
  Definition sparse_lb (s : st) (v : view) (b : branch) (d n : nat) (custom lb : node) : node :=
    let bc := get_bc v b 0 in
    let sols := fst (solve_leaf v (init_sol T)) in
    let '(sols, mds) := match lower_cached (s_c s) v b n (d - 1) with
                        | Some (ld, ln) => (add_sol sols (c_retrieve T (s_c s) v b ld ln), ld)
                        | None => (sols, 0) end in
    let mds := Nat.max mds (s_mdf s - br_depth b) in
    let split := (Z.of_nat (mds + 1) * bc + nd_sol custom)%Z in
    if (nd_sol sols <=? split)%Z then add_sol_inv lb sols
    else add_sol_inv lb (branch_node 0 split (nd_l sols) (nd_r sols)).

  (** solver.cpp:624-677: ComputeLowerBound. *)
  Definition compute_lb (s : st) (v : view) (b : branch) (d n : nat) : node :=
    if c_lb G then
      let lb := add_sol_inv init_lb (Model_Cache.c_lb (s_c s) v b d n) in
      let custom := match tk_lb T with
                    | Some g => if c_tlb G then value_node (g v b d n) else init_lb
                    | None => init_lb end in
      let lb := add_sol_inv lb custom in
      if tk_sparse T then sparse_lb s v b d n custom lb else lb
    else init_lb.

  (** solver.cpp:679-700: ComputeLeftRightLowerBound: (lb, left lb, right lb). *)
  Definition lr_lb (s : st) (f : nat) (bc : Z) (lv : view) (lbr : branch) (ld ls : nat)
             (rv : view) (rbr : branch) (rd rs : nat) : node * node * node :=
    if c_lb G then
      let l := compute_lb s lv lbr ld ls in
      let r := compute_lb s rv rbr rd rs in
      (combine_sols T f l r bc, l, r)
    else (init_lb, init_lb, init_lb).

  (** solver.cpp:764-779: SubtractUBs, total order (AddRootRelaxSols does nothing then). *)
  Definition subtract_ubs (ub sols cur : node) (bc : Z) : node :=
    if c_ub G
    then let z := if tk_dom T (nd_sol cur) (nd_sol ub)
                  then zsub (nd_sol cur - tk_mindiff T) (nd_sol sols)
                  else zsub (nd_sol ub) (nd_sol sols) in
         value_node (zsub z bc)
    else value_node (nd_sol ub).

  (** solver.cpp:886-902: ReduceNodeBudget.  Simplification: the tolerance 1e-6 and the
      clamp to INT32_MAX are left out, the quotient is the exact integer quotient. *)
  Definition reduce_budget (v : view) (b : branch) (ub : node) (d n : nat) : nat * nat :=
    if tk_sparse T then
      if tk_huge T (nd_sol ub) then (d, n)
      else let bc := get_bc v b 0 in
           if (bc <=? 0)%Z then (d, n)
           else let nodes := Z.to_nat (nd_sol ub / bc) in
                if (nodes <? n) && (Nat.min d nodes <? d)
                then (Nat.min d nodes, Nat.min n (2 ^ (Nat.min d nodes) - 1)) else (d, n)
    else (d, n).

  (** similarity_lowerbound.cpp:62-65: the amount to subtract. *)
  Definition sim_subtract (nl : nat) (m : list (nat * nat)) : Z :=
    fold_left (fun a k => (a + tk_wpl T k * Z.of_nat (snd (nth k m (0%nat, 0%nat))))%Z) (seq 0 nl) 0%Z.

  (** instance_cost_sensitive.cpp:59-95 (ComputeSimilarityLowerBound): a task with its own bound
      adds up the worst costs of the old instances that are missing in the new data. *)
  Definition sim_custom (w : inst -> Z) (old new : view) : Z :=
    fold_left (fun a xs => fold_left (fun a x => (a + w x)%Z) xs a) (diff_remove old new) 0%Z.
  (** similarity_lowerbound.cpp:46-52, 60-65: the amount to subtract for either kind of task. *)
  Definition sim_amount (old new : view) : Z :=
    match tk_sim T with
    | Some w => sim_custom w old new
    | None => sim_subtract (num_labels new) (diff_metrics old new)
    end.
  (** similarity_lowerbound.cpp:59: an entry with too many removals is skipped, unless the task
      has its own bound. *)
  Definition sim_skip (old new : view) : bool :=
    match tk_sim T with
    | Some _ => false
    | None => vsize new <? 2 * num_removals (diff_metrics old new)
    end.

  (** similarity_lowerbound.cpp:41-81: the loop over the archive.  The tests with the
      constant 0.5 are written in integers. *)
  Fixpoint sim_loop (ar : list (view * branch)) (v : view) (b : branch) (d n : nat)
           (c : caches) (lb : node) : node * bool * caches :=
    match ar with
    | [] => (lb, false, c)
    | (ev, eb) :: r =>
      if 3 * vsize v <? 2 * vsize ev then sim_loop r v b d n c lb
      else
        let m := diff_metrics ev v in
        if sim_skip ev v then sim_loop r v b d n c lb
        else
          let e0 := Model_Cache.c_lb c ev eb d n in
          let e := Node (nd_feat e0) (nd_lab e0) (zsub (nd_sol e0) (sim_amount ev v))
                        (nd_l e0) (nd_r e0) in
          if total_difference m =? 0 then
            let c' := c_transfer T c eb b in
            if c_is_optimal c' v b d n then (e, true, c')
            else sim_loop r v b d n c' (add_sol_inv lb e)
          else sim_loop r v b d n c (add_sol_inv lb e)
    end.

  (** solver.cpp:1116-1128: UpdateCacheUsingSimilarity. *)
  Definition update_sim (s : st) (v : view) (b : branch) (d n : nat) : bool * st :=
    if c_sim G then
      let '(lb, optimal, c) := sim_loop (s_ar s d) v b d n (s_c s) init_lb in
      let s := set_c s c in
      if is_empty lb then (false, s)
      else if optimal then (true, s)
      else if tk_eq T 0%Z (nd_sol lb) then (false, s)
      else (false, set_c s (c_upd_lb T (s_c s) v b lb d n))
    else (false, s).

  (** similarity_lowerbound.cpp:119-134: GetMostSimilarStoredData gives the first entry with
      the smallest total difference; it is overwritten. *)
  Fixpoint most_similar (v : view) (i : nat) (ar : list (view * branch)) (best : option (nat * nat)) : nat :=
    match ar with
    | [] => match best with Some (j, _) => j | None => 0 end
    | (ev, _) :: r =>
      let sc := total_difference (diff_metrics ev v) in
      match best with
      | Some (_, bs) => if sc <? bs then most_similar v (S i) r (Some (i, sc)) else most_similar v (S i) r best
      | None => most_similar v (S i) r (Some (i, sc))
      end
    end.

  (** similarity_lowerbound.cpp:84-94: UpdateArchive. *)
  Definition update_archive (s : st) (v : view) (b : branch) (d : nat) : st :=
    if c_sim G then
      let ar := s_ar s d in
      let ar' := if length ar <? 2 then ar ++ [(v, b)]
                 else set_nth (most_similar v 0 ar None) (v, b) ar in
      set_ar s (fun d' => if d' =? d then ar' else s_ar s d')
    else s.

  (** solver.cpp:556-582: store one of the three results of the terminal solver. *)
  Definition store_term (c : caches) (v : view) (b : branch) (ub sol : node) (d n : nat) : caches :=
    if c_is_optimal c v b d n then c
    else if is_empty sol then c_upd_lb T c v b ub d n
    else c_store c v b sol d n.

  (** solver.cpp:533-596: SolveTerminalNode.  The choice between the two terminal solvers
      has no effect on the results (property C14). *)
  Definition solve_terminal (v : view) (b : branch) (ub : node) (d n : nat) (s : st) : node * st :=
    let r := term_solve T nf (c_mls G) v b n in
    let c := store_term (s_c s) v b ub (r_one r) 1 1 in
    let c := store_term c v b ub (r_two r) 2 2 in
    let c := store_term c v b ub (r_three r) 2 3 in
    let s := update_archive (set_c s c) v b d in
    let res := match n with 1 => r_one r | 2 => r_two r | _ => r_three r end in
    (if tk_sdom T (nd_sol ub) (nd_sol res) then init_sol T else res, s).

  (** The variables of SolveSubTreeGeneralCase that change in its loops. *)
  Record loop := Loop { l_ub : node; l_sols : node; l_inf : node; l_st : st }.
  Definition with_st (L : loop) (s : st) : loop := Loop (l_ub L) (l_sols L) (l_inf L) s.
  Definition with_inf (L : loop) (lb : node) (s : st) : loop :=
    Loop (l_ub L) (l_sols L) (add_sol (l_inf L) lb) s.

  (** The recursive call SolveSubTree. *)
  Definition solver_fun := view -> branch -> node -> nat -> nat -> st -> node * st.

  (** solver.cpp:441-505: one way of distributing the nodes over the two children.  The
      flag says that the loop over the sizes was left (time limit). [lv] is the larger side;
      [swap] says it is the side with the feature present. *)
  Definition size_step (rec : solver_fun) (d n f : nat) (bc : Z) (swap : bool)
             (lv : view) (lbr : branch) (rv : view) (rbr : branch) (L : loop) (ls : nat) : loop * bool :=
    let rs := n - ls - 1 in
    let ld := Nat.min (d - 1) ls in
    let rd := Nat.min (d - 1) rs in
    let '(lb, llb, rlb) := lr_lb (l_st L) f bc lv lbr ld ls rv rbr rd rs in
    if c_ub G && tk_sdom T (nd_sol (l_ub L)) (nd_sol lb) then (with_inf L lb (l_st L), false)
    else if tk_eq T (nd_sol lb) (nd_sol (l_sols L)) then (L, false)
    else
      let '(lsol, s1) := rec lv lbr (subtract_ubs (l_ub L) rlb (l_sols L) bc) ld ls (l_st L) in
      let '(ok, s1) := in_time s1 in
      if negb ok then (with_st L s1, true)
      else if is_empty lsol
      then let '(lb, _, _) := lr_lb s1 f bc lv lbr ld ls rv rbr rd rs in (with_inf L lb s1, false)
      else
        let '(rsol, s2) := rec rv rbr (subtract_ubs (l_ub L) lsol (l_sols L) bc) rd rs s1 in
        let '(ok, s2) := in_time s2 in
        if negb ok then (with_st L s2, true)
        else if is_empty rsol
        then let '(lb, _, _) := lr_lb s2 f bc lv lbr ld ls rv rbr rd rs in (with_inf L lb s2, false)
        else
          let new := if swap then combine_sols T f rsol lsol bc else combine_sols T f lsol rsol bc in
          if c_ub G && tk_sdom T (nd_sol (l_ub L)) (nd_sol new) then (with_inf L new s2, false)
          else (Loop (upd_ub (l_ub L) new)
                     (if tk_sdom T (nd_sol new) (nd_sol (l_sols L)) then new else l_sols L)
                     (l_inf L) s2, false).

  (** solver.cpp:441: the loop over the sizes. *)
  Fixpoint size_loop (step : loop -> nat -> loop * bool) (L : loop) (sizes : list nat) : loop :=
    match sizes with
    | [] => L
    | k :: r => let '(L', stop) := step L k in if stop then L' else size_loop step L' r
    end.

  (** solver.cpp:348-349, 1057-1058: the range of subtree sizes. *)
  Definition max_size (d n : nat) : nat := Nat.min (2 ^ (d - 1) - 1) (n - 1).
  Definition min_size (d n : nat) : nat := n - 1 - max_size d n.

  (** solver.cpp:404-505: one feature.  [None]: the loop over the features is left. *)
  Definition feature_step (rec : solver_fun) (v : view) (b : branch) (d n f : nat) (L : loop) : option loop :=
    if br_has b f || negb (tk_may T f) || c_redundant G f then Some L
    else
      let bc := get_bc v b f in
      if tk_sparse T && c_ub G && (nd_sol (l_ub L) <? bc)%Z then None
      else
        let lv := split_left f v in
        let rv := split_right f v in
        if negb (sat_mls lv 1) || negb (sat_mls rv 1) then Some L
        else
          let lbr := br_left b f in
          let rbr := br_right b f in
          let sizes := seq (min_size d n) (S (max_size d n) - min_size d n) in
          if vsize lv <? vsize rv
          then Some (size_loop (size_step rec d n f bc true rv rbr lv lbr) L sizes)
          else Some (size_loop (size_step rec d n f bc false lv lbr rv rbr) L sizes).

  (** solver.cpp:389-507: the loop over the features. *)
  Fixpoint feature_loop (rec : solver_fun) (v : view) (b : branch) (d n : nat) (blb : node)
           (L : loop) (fs : list nat) : loop :=
    match fs with
    | [] => L
    | f :: r =>
      let '(ok, s) := in_time (l_st L) in
      let L := with_st L s in
      if negb ok then L
      else if c_lb G && tk_eq T (nd_sol blb) (nd_sol (l_sols L)) then L
      else if c_lb G && c_ub G && tk_sdom T (nd_sol (l_ub L)) (nd_sol blb) then L
      else match feature_step rec v b d n f L with
           | None => L
           | Some L => feature_loop rec v b d n blb L r
           end
    end.

  (** solver.cpp:340-531: SolveSubTreeGeneralCase. *)
  Definition general_case (rec : solver_fun) (v : view) (b : branch) (ub0 : node) (d n : nat) (s : st) : node * st :=
    let '(sols, ub) := solve_leaf v ub0 in
    if negb (sat_mls v 2) then (sols, s)
    else
      let '(sols, ub) :=
        match lower_cached (s_c s) v b n (d - 1) with
        | Some (ld, ln) =>
          let cached := c_retrieve T (s_c s) v b ld ln in
          if c_ub G && tk_sdom T (nd_sol ub) (nd_sol cached) then (sols, ub)
          else (add_sol sols cached, add_sol ub cached)
        | None => (sols, ub)
        end in
      let blb := compute_lb s v b d n in
      let L := feature_loop rec v b d n blb (Loop ub sols (init_sol T) s) (c_order G v) in
      let sols := l_sols L in
      let c := s_c (l_st L) in
      let c := if negb (is_empty sols) then c_store c v b sols d n
               else let inf := if tk_eq T (nd_sol (l_inf L)) (tk_worst T) then ub0
                               else add_sol_inv (l_inf L) ub0 in
                    c_upd_lb T c v b inf d n in
      (sols, update_archive (set_c (l_st L) c) v b d).

  (** solver.cpp:277-338: SolveSubTree.  [fuel] bounds the recursion depth; every call made
      by the model has fuel larger than the depth budget. *)
  Fixpoint solve_sub (fuel : nat) (v : view) (b : branch) (ub0 : node) (d0 n0 : nat) (s : st) : node * st :=
    match fuel with
    | 0 => (init_sol T, set_err s)
    | S fuel =>
      let '(ok, s) := in_time s in
      if negb ok then (init_sol T, s)
      else
        let '(d, n) := reduce_budget v b ub0 d0 n0 in
        if (d =? 0) || (n =? 0) then (fst (solve_leaf v ub0), s)
        else
          let cached := c_retrieve T (s_c s) v b d n in
          if negb (is_empty cached) then (cached, s)
          else
            let continue s :=
              if c_term G && (d <=? 2) then solve_terminal v b ub0 d n s
              else general_case (solve_sub fuel) v b ub0 d n s in
            if c_lb G then
              let '(upd, s) := update_sim s v b d n in
              let cached := c_retrieve T (s_c s) v b d n in
              if upd && negb (is_empty cached) then (cached, s)
              else
                let lb := compute_lb s v b d n in
                if c_ub G && tk_sdom T (nd_sol ub0) (nd_sol lb) then (init_sol T, s)
                else
                  let leaf := fst (solve_leaf v (init_sol T)) in
                  if tk_eq T (nd_sol lb) (nd_sol leaf) then (leaf, s)
                  else continue s
            else continue s
    end.

  (** utils.h:7-12: int_log2. *)
  Definition int_log2 (x : nat) : nat := Nat.log2 x.

  (** solver.cpp:1062-1070: scan the cached solutions of a child for growing sizes. *)
  Fixpoint scan_child (s : st) (v : view) (b : branch) (dm : nat) (sizes : list nat) : option (node * nat) :=
    match sizes with
    | [] => None
    | k :: r =>
      let sol := if k =? 0 then fst (solve_leaf v (init_sol T))
                 else c_retrieve T (s_c s) v b (Nat.min dm k) k in
      if is_empty sol then scan_child s v b dm r else Some (sol, k)
    end.

  (** solver.cpp:1055-1102: the solution of one child with its depth and size; [a] is the
      number of nodes of that child in the solution. *)
  Definition child_sol (v : view) (b : branch) (d n a : nat) (s : st) : (node * nat * nat) * st :=
    let from := Nat.max a (min_size d n) in
    let found := if cache_used (s_c s)
                 then scan_child s v b (d - 1) (seq from (S (max_size d n) - from)) else None in
    match found with
    | Some (sol, k) => ((sol, Nat.min (d - 1) k, k), s)
    | None =>
      let k := if cache_used (s_c s) then Nat.max from (S (max_size d n)) else a in
      let cd := Nat.min (d - 1) a in
      let '(sol, s) := solve_sub (S cd) v b (init_sol T) cd a s in
      if is_empty sol
      then let '(sol, s) := solve_sub (S cd) v b (init_sol T) cd a s in ((sol, cd, k), s)
      else ((sol, cd, k), s)
    end.

  (** solver.cpp:993-1114: ConstructOptimalTree.  [None]: a leaf without a label (the C++
      code would build a leaf with the sentinel label).  The stopwatch is disabled. *)
  Fixpoint construct (fuel : nat) (sol : node) (v : view) (b : branch) (d0 n0 : nat) (s : st) : option tree * st :=
    match fuel with
    | 0 => (None, set_err s)
    | S fuel =>
      let s := set_on s false in
      let d := Nat.min d0 n0 in
      let n := Nat.min n0 (2 ^ d - 1) in
      if (d =? 0) || (n =? 0) || (num_nodes sol =? 0)
      then (match nd_lab sol with Some l => Some (Leaf l) | None => None end, s)
      else
        let d1 := (d =? 1) || (n =? 1) || (num_nodes sol =? 1) in
        match (if c_term G && negb d1 && (d <=? 2) then term_construct T nf (c_mls G) sol v b else None) with
        | Some t => (Some t, s)
        | None =>
          match nd_feat sol with
          | None => (None, s)
          | Some f =>
            let lv := split_left f v in
            let rv := split_right f v in
            let '(lc, s) := child_sol lv (br_left b f) d n (nd_l sol) s in
            let '(rc, s) := child_sol rv (br_right b f) d n (nd_r sol) s in
            let '(lsol, ld, ls) := lc in
            let '(rsol, rd, rs) := rc in
            let '(lt, s) := construct fuel lsol lv (br_left b f) ld ls s in
            let '(rt, s) := construct fuel rsol rv (br_right b f) rd rs s in
            (match lt, rt with Some l, Some r => Some (Split f l r) | _, _ => None end, s)
          end
        end
    end.

  (** The parameters max-depth, max-num-nodes, all-trees and upper-bound. *)
  Record params := Params { p_depth : nat; p_nodes : nat; p_all : bool; p_ub : Z }.

  (** The loop variables of Solve: result, global_UB, state, max_depth_searched. *)
  Record outer := Outer { o_res : node; o_ub : node; o_st : st; o_mds : nat }.

  (** solver.cpp:152-171: one search depth; the flag says whether the loop goes on. *)
  Definition depth_step (P : params) (v : view) (Q : outer) (d : nat) : outer * bool :=
    let n := Nat.min (p_nodes P) (2 ^ d - 1) in
    let '(sol, s) := solve_sub (S d) v [] (o_ub Q) d n (o_st Q) in
    let res := add_sol (o_res Q) sol in
    let gub := add_sol (o_ub Q) sol in
    let gub := if (nd_sol res =? tk_worst T)%Z then gub
               else Node (nd_feat gub) (nd_lab gub) (Z.min (nd_sol gub) (nd_sol res - tk_mindiff T)) (nd_l gub) (nd_r gub) in
    let s := set_mdf s d in
    let '(ok, s) := in_time s in
    (Outer res gub s d, ok).

  (** solver.cpp:117-146: one node budget (all-trees mode). *)
  Definition nodes_step (P : params) (v : view) (Q : outer) (n : nat) : outer * bool :=
    let '(ok, s) := in_time (o_st Q) in
    if negb ok then (Outer (o_res Q) (o_ub Q) s (o_mds Q), false)
    else
      let d := Nat.min (p_depth P) n in
      let '(sol, s) := solve_sub (S d) v [] (o_ub Q) d n s in
      let s := set_mdf s (int_log2 (n + 1)) in
      let res := add_sol (o_res Q) sol in
      let gub := add_sol (o_ub Q) sol in
      let gub := if (nd_sol res =? tk_worst T)%Z then gub
                 else Node (nd_feat gub) (nd_lab gub) (nd_sol res - tk_mindiff T)%Z (nd_l gub) (nd_r gub) in
      let '(ok, s) := in_time s in
      (Outer res gub s d, ok).

  Fixpoint outer_loop (step : outer -> nat -> outer * bool) (Q : outer) (ks : list nat) : outer :=
    match ks with
    | [] => Q
    | k :: r => let '(Q, ok) := step Q k in if ok then outer_loop step Q r else Q
    end.

  (** solver.cpp:180-186: the depth with which the tree is reconstructed. *)
  Fixpoint find_depth (s : st) (v : view) (res : node) (ks : list nat) (last : nat) : nat :=
    match ks with
    | [] => last
    | k :: r => if c_is_optimal (s_c s) v [] k (num_nodes res)
                   && node_eqb (c_retrieve T (s_c s) v [] k (num_nodes res)) res
                then k else find_depth s v res r (S k)
    end.

  (** What Solve returns: the value of the search result, the reconstructed tree (if there
      is one) before the flips are undone, the flag is_proven_optimal and the final state. *)
  Record answer := Answer { a_sol : node; a_tree : option tree; a_proven : bool; a_st : st; a_ub : node }.

  (** solver.cpp:84-100: the first upper bound and the first result.  With a global upper
      bound left over from an earlier call the result starts empty (property C45). *)
  Definition first_ub (P : params) (v : view) (gub : node) : node * node :=
    if is_empty gub then solve_leaf v (add_sol (init_sol T) (value_node (p_ub P)))
    else (init_sol T, gub).

  (** solver.cpp:102-205: Solve, on the preprocessed training data, from the state [s] and
      the global upper bound [gub] left by InitializeSolver. *)
  Definition solve (P : params) (v : view) (gub : node) (s : st) : answer :=
    let s := St (s_c s) (s_ar s) (s_tick s) false true 0 (s_err s) in
    let '(res, gub) := first_ub P v gub in
    let min_nodes := if p_all P then 1 else p_nodes P in
    let max_depth := Nat.min (p_depth P) (p_nodes P) in
    let Q := Outer res gub s (p_depth P) in
    let Q := if min_nodes =? 1
             then outer_loop (nodes_step P v) Q (seq 1 (p_nodes P))
             else let d0 := Nat.min 2 max_depth in
                  outer_loop (depth_step P v) Q (seq d0 (S max_depth - d0)) in
    let '(proven, s) := in_time (o_st Q) in
    let res := o_res Q in
    if (nd_sol res =? tk_worst T)%Z then Answer res None proven s (o_ub Q)
    else
      let from := int_log2 (num_nodes res + 1) in
      let top := Nat.min (o_mds Q) (num_nodes res) in
      let depth := Nat.min (find_depth s v res (seq from (S top - from)) (Nat.max from (S top))) (o_mds Q) in
      let '(t, s) := construct (S depth) res v [] depth (num_nodes res) s in
      Answer res t proven s (o_ub Q).

  (** solver.cpp:211-258, cache.h:29-36: the state after InitializeSolver has reset
      everything for a data set of [N] instances. *)
  Definition init_state (use_branch use_data : bool) (N : nat) : st :=
    St (Caches use_branch use_data (c_lb G) N [] []) (fun _ => []) 0 false true 0 false.
End WithTask.
