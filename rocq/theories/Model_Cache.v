(** Model of the two caches.
    Sources: /repo/include/solver/cache_entry.h, /repo/src/solver/cache.cpp,
    /repo/src/solver/branch_cache.cpp, /repo/src/solver/dataset_cache.cpp. *)
From Coq Require Import List Arith Bool Lia ZArith.
From Verif Require Import Model_FeatureVector Model_Data Model_Node.
Import ListNotations.
Local Open Scope nat_scope.

(** cache_entry.h:59-63: the fields of CacheEntry. *)
Record entry := Entry { e_opt : node; e_lb : node; e_d : nat; e_n : nat }.

(** cache_entry.h:14-20: an entry without solution; its lower bound is InitializeSol(true). *)
Definition new_entry (T : task) (d n : nat) : entry := Entry (init_sol T) init_lb d n.

(** cache_entry.h:22-29: an entry with a solution. *)
Definition opt_entry (d n : nat) (sol : node) : entry := Entry sol sol d n.

(** cache_entry.h:53: IsOptimal. *)
Definition e_is_opt (e : entry) : bool := negb (is_empty (e_opt e)).

(** cache_entry.h:39-46: SetOptimalSolutions. *)
Definition e_set_opt (e : entry) (sol : node) : entry :=
  Entry sol (if is_empty sol then e_lb e else sol) (e_d e) (e_n e).

(** cache_entry.h:48-51: UpdateLowerBound. *)
Definition e_upd_lb (e : entry) (lb : node) : entry :=
  Entry (e_opt e) (add_sol_inv (e_lb e) lb) (e_d e) (e_n e).

Definition e_is (d n : nat) (e : entry) : bool := (e_n e =? n) && (e_d e =? d).

(** branch_cache.cpp:17-23, dataset_cache.cpp:26-32: the first entry with exactly these
    budgets decides. *)
Definition es_is_optimal (es : list entry) (d n : nat) : bool :=
  match find (e_is d n) es with Some e => e_is_opt e | None => false end.

(** branch_cache.cpp:137-143, dataset_cache.cpp:123-129: RetrieveOptimalAssignment. *)
Definition es_retrieve (T : task) (es : list entry) (d n : nat) : node :=
  match find (fun e => e_is d n e && e_is_opt e) es with
  | Some e => e_opt e | None => init_sol T end.

(** branch_cache.cpp:43-47 / 76-84, dataset_cache.cpp:51-55 / 90-98: the (depth, node)
    budgets that are written: node budgets sn..n, depth budgets od..min(d, node budget). *)
Definition budgets (od sn d n : nat) : list (nat * nat) :=
  flat_map (fun nb => map (fun db => (db, nb)) (seq od (S (Nat.min d nb) - od)))
           (seq sn (S n - sn)).

(** branch_cache.cpp:60-61, dataset_cache.cpp:69-70: the entry is in the written range. *)
Definition in_range (od sn d n : nat) (e : entry) : bool :=
  (sn <=? e_n e) && (e_n e <=? n) && (od <=? e_d e) && (e_d e <=? d).

(** branch_cache.cpp:26-92, dataset_cache.cpp:35-108: StoreOptimalBranchAssignment on one
    entry vector.  A key that is not yet present behaves as the empty vector.  [od] is
    optimal_node_depth and [sn] is sol_num_nodes. *)
Definition es_store (es : list entry) (sol : node) (od sn d n : nat) : list entry :=
  map (fun e => if in_range od sn d n e && negb (e_is_opt e) then e_set_opt e sol else e) es
  ++ map (fun b => opt_entry (fst b) (snd b) sol)
         (filter (fun b => negb (existsb (fun e => in_range od sn d n e && e_is (fst b) (snd b) e) es))
                 (budgets od sn d n)).

(** branch_cache.cpp:146-180 ([guard] = true), dataset_cache.cpp:132-165 ([guard] = false):
    UpdateLowerBound on one entry vector: the first entry with exactly these budgets is
    updated (in the branch cache only when it is not optimal), or a new one is added. *)
Fixpoint es_upd_lb (T : task) (guard : bool) (es : list entry) (lb : node) (d n : nat) : list entry :=
  match es with
  | [] => [e_upd_lb (new_entry T d n) lb]
  | e :: r => if e_is d n e
              then (if guard && e_is_opt e then e else e_upd_lb e lb) :: r
              else e :: es_upd_lb T guard r lb d n
  end.

(** branch_cache.cpp:194-208, dataset_cache.cpp:175-193: RetrieveLowerBound on one vector. *)
Definition es_lb (es : list entry) (d n : nat) : node :=
  fold_left (fun best e =>
    if (n <=? e_n e) && (d <=? e_d e) && negb (is_empty (e_lb e))
    then (if is_empty best then e_lb e else add_sol_inv best (e_lb e))
    else best) es init_lb.

(** Association lists for the unordered maps (hash values are not modelled). *)
Section Assoc.
  Context {K : Type} (eqb : K -> K -> bool).
  Fixpoint alookup (k : K) (m : list (K * list entry)) : option (list entry) :=
    match m with
    | [] => None
    | (k', es) :: r => if eqb k k' then Some es else alookup k r
    end.
  Fixpoint aset (k : K) (es : list entry) (m : list (K * list entry)) : list (K * list entry) :=
    match m with
    | [] => [(k, es)]
    | (k', es') :: r => if eqb k k' then (k', es) :: r else (k', es') :: aset k es r
    end.
  Definition aget (k : K) (m : list (K * list entry)) : list entry :=
    match alookup k m with Some es => es | None => [] end.
End Assoc.

(** branch_cache.cpp: std::vector (indexed by the branch depth) of maps keyed by the
    branch; since equal branches have equal depth one map is enough.  dataset_cache.cpp:
    likewise for the number of instances.  The iterator memo of the dataset cache
    (FindIterator) is modelled separately in Model_DatasetIter.v. *)
Record caches := Caches {
  cc_use_branch : bool; cc_use_data : bool; cc_use_lb : bool; cc_n : nat;
  cc_branch : list (branch * list entry);
  cc_data : list (list bool * list entry) }.

Definition bc_get (c : caches) (b : branch) : list entry := aget br_eqb b (cc_branch c).
Definition dc_get (c : caches) (v : view) : list entry := aget bits_eqb (dkey (cc_n c) v) (cc_data c).
Definition bc_set (c : caches) (b : branch) (es : list entry) : caches :=
  Caches (cc_use_branch c) (cc_use_data c) (cc_use_lb c) (cc_n c)
         (aset br_eqb b es (cc_branch c)) (cc_data c).
Definition dc_set (c : caches) (v : view) (es : list entry) : caches :=
  Caches (cc_use_branch c) (cc_use_data c) (cc_use_lb c) (cc_n c)
         (cc_branch c) (aset bits_eqb (dkey (cc_n c) v) es (cc_data c)).

(** cache.h:39: UseCache. *)
Definition cache_used (c : caches) : bool := cc_use_branch c || cc_use_data c.

(** cache.cpp:5-14: IsOptimalAssignmentCached (use_optimal_caching is always true:
    DisableOptimalCaching has no caller). *)
Definition c_is_optimal (c : caches) (v : view) (b : branch) (d n : nat) : bool :=
  (cc_use_branch c && es_is_optimal (bc_get c b) d n)
  || (cc_use_data c && es_is_optimal (dc_get c v) d n).

(** cache.cpp:16-21: StoreOptimalBranchAssignment.  branch_cache.cpp:38 takes
    optimal_node_depth = min(depth, num_nodes), dataset_cache.cpp:46 takes
    min(depth, sol_num_nodes). *)
Definition c_store (c : caches) (v : view) (b : branch) (sol : node) (d n : nat) : caches :=
  let c := if cc_use_branch c
           then bc_set c b (es_store (bc_get c b) sol (Nat.min d n) (num_nodes sol) d n) else c in
  if cc_use_data c
  then dc_set c v (es_store (dc_get c v) sol (Nat.min d (num_nodes sol)) (num_nodes sol) d n) else c.

(** cache.cpp:23-35: RetrieveOptimalAssignment. *)
Definition c_retrieve (T : task) (c : caches) (v : view) (b : branch) (d n : nat) : node :=
  let rb := if cc_use_branch c then es_retrieve T (bc_get c b) d n else init_sol T in
  if is_empty rb
  then (let rd := if cc_use_data c then es_retrieve T (dc_get c v) d n else init_sol T in
        if is_empty rd then init_sol T else rd)
  else rb.

(** cache.cpp:37-46: UpdateLowerBound. *)
Definition c_upd_lb (T : task) (c : caches) (v : view) (b : branch) (lb : node) (d n : nat) : caches :=
  if cc_use_lb c then
    let c := if cc_use_branch c then bc_set c b (es_upd_lb T true (bc_get c b) lb d n) else c in
    if cc_use_data c then dc_set c v (es_upd_lb T false (dc_get c v) lb d n) else c
  else c.

(** cache.cpp:48-60: RetrieveLowerBound. *)
Definition c_lb (c : caches) (v : view) (b : branch) (d n : nat) : node :=
  if cc_use_lb c then
    let rb := if cc_use_branch c then es_lb (bc_get c b) d n else init_lb in
    if is_empty rb
    then (let rd := if cc_use_data c then es_lb (dc_get c v) d n else init_lb in
          if is_empty rd then init_lb else rd)
    else rb
  else init_lb.

(** branch_cache.cpp:108-127: one source entry against the destination vector.  The
    destination entries are scanned in order; an entry with the same budgets clears
    [should_add] and is replaced when the source is better, which ends the scan. *)
Fixpoint transfer_one (T : task) (src : entry) (dst : list entry) : bool * list entry :=
  match dst with
  | [] => (true, [])
  | e :: r =>
    if e_is (e_d src) (e_n src) e
    then if (e_is_opt src && negb (e_is_opt e))
            || tk_sdom T (nd_sol (e_lb src)) (nd_sol (e_lb e))
         then (false, src :: r)
         else let (_, r') := transfer_one T src r in (false, e :: r')
    else let (a, r') := transfer_one T src r in (a, e :: r')
  end.
Definition transfer_step (T : task) (dst : list entry) (src : entry) : list entry :=
  let (add, dst') := transfer_one T src dst in
  if add then dst' ++ [src] else dst'.

(** branch_cache.cpp:94-128 and cache.cpp:62-69: TransferAssignmentsForEquivalentBranches.
    The destination is looked up in the map of the depth of the *source* branch; when the
    depths differ it is not found there and [insert] leaves an existing vector alone. *)
Definition c_transfer (T : task) (c : caches) (bs bd : branch) : caches :=
  if negb (cc_use_lb c) || br_eqb bs bd || negb (cc_use_branch c) then c
  else match alookup br_eqb bs (cc_branch c) with
       | None => c
       | Some src =>
         match alookup br_eqb bd (cc_branch c) with
         | None => bc_set c bd src
         | Some dst =>
           if br_depth bs =? br_depth bd
           then bc_set c bd (fold_left (transfer_step T) src dst)
           else c
         end
       end.
