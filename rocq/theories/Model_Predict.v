(** Model of predictions and scores on new data.
    Sources: /repo/src/bindings.cpp:48-152, /repo/src/solver/solver.cpp:246-259, 1218-1228, 1255-1275,
    /repo/src/solver/data_splitter.cpp, /repo/include/solver/tree.h:97-142, /repo/src/model/data.cpp:333-358. *)
From Coq Require Import List Arith Bool ZArith.
From Verif Require Import Model_FeatureVector Model_Data Model_Node Model_Terminal Model_Solver Model_Preproc.
Import ListNotations.

(** bindings.cpp:73-80: push an instance on the list of its label, extending the vector. *)
Fixpoint push (k : nat) (x : inst) (v : view) : view :=
  match k, v with
  | 0, [] => [[x]]
  | 0, g :: r => (g ++ [x]) :: r
  | S k', [] => [] :: push k' x []
  | S k', g :: r => g :: push k' x r
  end.

(** bindings.cpp:48-83: NumpyToSTreeDData for integer labels: row [i] becomes instance [i].
    A table is a list of rows with their labels; the label is 0 when no labels are given. *)
Definition load (rows : list (list nat * nat)) : view :=
  fold_left (fun v p => push (snd (snd p)) (Inst (fst p) (fv_make (map (fun k => negb (k =? 0)) (fst (snd p))))) v)
            (combine (seq 0 (length rows)) rows) [].

(** data_splitter.h:30-45: one of the two memos: from a branch and a feature to the two views. *)
Definition memo := list ((branch * nat) * (view * view)).
(** solver.h:28: MAX_DEPTH, the length of the vector of maps (data_splitter.h:36). *)
Definition max_branch : nat := 20.
Fixpoint memo_find (b : branch) (f : nat) (m : memo) : option (view * view) :=
  match m with
  | [] => None
  | ((b', f'), w) :: r => if br_eqb b b' && (f =? f') then Some w else memo_find b f r
  end.

(** data_splitter.cpp:5-20: Split with the memo ([on] = enabled).  One map for all depths,
    since equal branches have equal depth.  [None]: index outside the vector of maps. *)
Definition split_memo (on : bool) (m : memo) (v : view) (b : branch) (f : nat) : option ((view * view) * memo) :=
  if on then
    if max_branch <=? br_depth b then None
    else match memo_find b f m with
         | Some w => Some (w, m)
         | None => Some ((split_left f v, split_right f v), ((b, f), (split_left f v, split_right f v)) :: m)
         end
  else Some ((split_left f v, split_right f v), m).

(** data_splitter.h:30-45: the splitter with its two memos, and its calls (Split, Clear). *)
Record splitter := Splitter { sp_on : bool; sp_train : memo; sp_test : memo }.
Inductive sp_call :=
| SpSplit (test : bool) (v : view) (b : branch) (f : nat)
| SpClear (test : bool).
Definition sp_step (s : splitter) (c : sp_call) : option (option (view * view) * splitter) :=
  match c with
  | SpSplit test v b f =>
      match split_memo (sp_on s) (if test then sp_test s else sp_train s) v b f with
      | None => None
      | Some (w, m) => Some (Some w, if test then Splitter (sp_on s) (sp_train s) m else Splitter (sp_on s) m (sp_test s))
      end
  | SpClear true => Some (None, Splitter (sp_on s) (sp_train s) [])
  | SpClear false => Some (None, Splitter (sp_on s) [] (sp_test s))
  end.
Fixpoint sp_run (s : splitter) (cs : list sp_call) : option (list (option (view * view))) :=
  match cs with
  | [] => Some []
  | c :: r => match sp_step s c with
              | None => None
              | Some (o, s') => match sp_run s' r with Some os => Some (o :: os) | None => None end
              end
  end.

(** tree.h:125-128: write one cell of the vector of labels; [None]: outside the vector. *)
Fixpoint write (k : nat) (l : nat) (ls : list nat) : option (list nat) :=
  match ls, k with
  | [], _ => None
  | _ :: r, 0 => Some (l :: r)
  | y :: r, S k' => match write k' l r with Some r' => Some (y :: r') | None => None end
  end.
Fixpoint write_all (xs : list inst) (l : nat) (ls : list nat) : option (list nat) :=
  match xs with
  | [] => Some ls
  | x :: r => match write (iid x) l ls with Some ls' => write_all r l ls' | None => None end
  end.

(** tree.h:121-142: Classify; [fl] are the flipped features.  The task's Classify returns the
    label of the leaf (optimization_task.h), as all tasks but piecewise-linear regression do. *)
Fixpoint classify (on : bool) (fl : nat -> bool) (t : tree) (v : view) (b : branch) (m : memo) (ls : list nat) : option (list nat * memo) :=
  match t with
  | Leaf l => match write_all (concat v) l ls with Some ls' => Some (ls', m) | None => None end
  | Split f l r =>
      match split_memo on m v b f with
      | None => None
      | Some ((vl, vr), m1) =>
          match classify on fl (if fl f then r else l) vl (br_left b f) m1 ls with
          | None => None
          | Some (ls1, m2) => classify on fl (if fl f then l else r) vr (br_right b f) m2 ls1
          end
      end
  end.

(** tree.h:97-119: ComputeTestScore with the memo: cost and sum of the sizes at all nodes. *)
Fixpoint test_score_memo (T : task) (on : bool) (fl : nat -> bool) (t : tree) (v : view) (b : branch) (m : memo) : option ((Z * nat) * memo) :=
  match t with
  | Leaf l => Some ((tk_leaf T v l, vsize v), m)
  | Split f l r =>
      match split_memo on m v b f with
      | None => None
      | Some ((vl, vr), m1) =>
          match test_score_memo T on fl (if fl f then r else l) vl (br_left b f) m1 with
          | None => None
          | Some ((zl, pl), m2) =>
              match test_score_memo T on fl (if fl f then l else r) vr (br_right b f) m2 with
              | None => None
              | Some ((zr, pr), m3) => Some (((get_bc T v b f + zl + zr)%Z, vsize v + pl + pr), m3)
              end
          end
      end
  end.

(** A view together with the call that allocated its instances.  The instances are deleted
    at the end of that call (data.h:131-137, the local AData of bindings.cpp:125-152). *)
Definition tagged := (nat * view)%type.

(** data.cpp:341-344: compare the sizes of the labels; [None]: the other view has fewer
    labels, an index outside its vector. *)
Fixpoint sizes_same (a b : view) : option bool :=
  match a with
  | [] => Some true
  | xs :: r => match b with
               | [] => None
               | ys :: s => if length xs =? length ys then sizes_same r s else Some false
               end
  end.
(** data.cpp:349-355: compare the ids. *)
Definition ids_same (a b : view) : bool :=
  forallb (fun p => list_nat_eqb (map iid (fst p)) (map iid (snd p))) (combine a b).
(** data.cpp:333-358: ADataView::operator==.  [live]: the calls whose instances exist;
    [None]: a deleted instance is read or an index is out of range. *)
Definition view_same (live : nat -> bool) (a b : tagged) : option bool :=
  if (vsize (snd a) =? 0) || (vsize (snd b) =? 0) then Some false
  else if negb (vsize (snd a) =? vsize (snd b)) then Some false
  else match sizes_same (snd a) (snd b) with
       | None => None
       | Some false => Some false
       | Some true => if live (fst a) && live (fst b) then Some (ids_same (snd a) (snd b)) else None
       end.

(** solver.h: org_test_data / test_data and the memo of test splits, and the number of calls
    so far. *)
Record test_state := TestState { ts_org : tagged; ts_memo : memo; ts_calls : nat }.
(** A new solver: an empty test view. *)
Definition fresh_test : test_state := TestState (0, []) [] 1.

(** solver.cpp:246-259: InitializeTest with reset = false.  PreprocessTestData copies the
    view for tasks without their own preprocessing. *)
Definition init_test (live : nat -> bool) (new : tagged) (s : test_state) : option test_state :=
  match view_same live (ts_org s) new with
  | None => None
  | Some true => Some s
  | Some false => Some (TestState new [] (ts_calls s))
  end.

(** One call on a fitted estimator. *)
Inductive py_call :=
| PyPredict (rows : list (list nat))
| PyScore (rows : list (list nat * nat)).
Inductive py_out := OutLabels (ls : list nat) | OutScore (z : Z) (p : nat).

(** bindings.cpp:125-152, solver.cpp:1255-1275: predict and score on one fitted solver with
    flipped features [fl], [nf] features and returned tree [t].  The score is given by the sum of
    the leaf costs and of the visits (Model_Preproc). *)
Definition py_step (T : task) (on : bool) (fl : nat -> bool) (nf : nat) (t : tree) (s : test_state) (c : py_call) : option (py_out * test_state) :=
  let me := ts_calls s in
  let rows := match c with PyPredict xs => map (fun x => (x, 0)) xs | PyScore xs => xs end in
  let new := (me, preprocess_test fl nf (load rows)) in
  match init_test (Nat.eqb me) new s with
  | None => None
  | Some s1 =>
      let v := snd (ts_org s1) in
      match c with
      | PyPredict _ =>
          match classify on fl t v [] (ts_memo s1) (repeat 0 (vsize v)) with
          | None => None
          | Some (ls, m) => Some (OutLabels ls, TestState (ts_org s1) m (S me))
          end
      | PyScore _ =>
          match test_score_memo T on fl t v [] (ts_memo s1) with
          | None => None
          | Some ((z, p), m) => Some (OutScore z p, TestState (ts_org s1) m (S me))
          end
      end
  end.
Fixpoint py_run (T : task) (on : bool) (fl : nat -> bool) (nf : nat) (t : tree) (s : test_state) (cs : list py_call) : option (list py_out) :=
  match cs with
  | [] => Some []
  | c :: r => match py_step T on fl nf t s c with
              | None => None
              | Some (o, s') => match py_run T on fl nf t s' r with Some os => Some (o :: os) | None => None end
              end
  end.
