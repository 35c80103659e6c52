(** Model of the life of an estimator object: constructing, changing settings, fitting,
    predicting, scoring and asking for the tree.  Source: /repo/pystreed/base.py:81-345 and
    /repo/src/bindings.cpp:98-164.
    The parts an estimator puts together (validation, binarizer, data checks, solver) are
    arbitrary functions here; they are modelled in the other files.  Warnings, printing and
    the feature names are left out; setting a seed of -1 (time) is left out. *)
From Coq Require Import List Bool.
Import ListNotations.

Section Estimator.
(** settings, raw tables, labels (with extra data), binarizers, binarized tables, solvers, results, trees, predictions, scores *)
Variables Par Raw Lab Bin Tab Slv Res Tre Pre Sco : Type.

(** What the estimator calls; [None] means that the call raises. *)
Record parts := Parts {
  validate : Par -> bool;                       (* sklearn _validate_params *)
  bin_new : Par -> Bin;                         (* Binarizer(...) *)
  bin_fit : Bin -> Raw -> Lab -> Bin * bool;    (* Binarizer.fit: changes it; false: raises *)
  bin_apply : Bin -> Raw -> option Tab;         (* Binarizer.transform *)
  tab_ok : Tab -> bool;                         (* check_array *)
  ncols : Tab -> nat;
  lab_ok : Tab -> Lab -> bool;                  (* the checks of y and of the extra data *)
  handler_ok : Par -> bool;                     (* initialize_streed_solver returns *)
  new_solver : Par -> Slv;
  upd_solver : Par -> Slv -> Slv;               (* _update_parameters *)
  solve : Slv -> Tab -> Lab -> Slv * option (option Res);  (* raises; no feasible tree; a result *)
  get_tree_of : Slv -> Res -> Tre;
  predict_of : Slv -> Res -> Tab -> Slv * option Pre;
  score_of : Slv -> Res -> Tab -> Lab -> Slv * option Sco;
  depth_of : Res -> nat;
  same_params : Par -> Par -> bool              (* no reset parameter differs *)
}.
Variable K : parts.

(** The attributes.  [e_fit = None]: attribute deleted; [Some None]: set to None by the
    constructor. *)
Record est := Est {
  e_par : Par;
  e_bin : option Bin;
  e_ncols : option nat;
  e_train : option (Tab * Lab);
  e_solver : option (Slv * Par);
  e_prev : option Tab;
  e_fit : option (option Res);
  e_tree : option Tre }.

(** base.py:81-113: the constructor. *)
Definition e_new (p : Par) : est := Est p None None None None None (Some None) None.

(** A call raises NotFittedError, raises something else, ends the process, or returns. *)
Inductive answer (A : Type) := Ans (a : A) | NotFitted | Raise | Stop.
Arguments Ans {A}. Arguments NotFitted {A}. Arguments Raise {A}. Arguments Stop {A}.

(** base.py:154-172: _should_reset_solver. *)
Definition should_reset (e : est) : bool :=
  match e_solver e with
  | None => true
  | Some (_, p0) => match e_prev e with None => true | Some _ => negb (same_params K p0 (e_par e)) end
  end.

(** base.py:230-286: fit.  The answer says whether a feasible tree was found. *)
Definition e_fit_call (e : est) (raw : Raw) (y : Lab) : est * answer bool :=
  if negb (validate K (e_par e)) then (e, Raise)
  else
    let (b, fitted) := bin_fit K (bin_new K (e_par e)) raw y in
    let e := Est (e_par e) (Some b) (e_ncols e) (e_train e) (e_solver e) (e_prev e) (e_fit e) (e_tree e) in
    if negb fitted then (e, Raise)
    else match bin_apply K b raw with
    | None => (e, Raise)
    | Some x =>
      if negb (tab_ok K x) then (e, Raise)
      else
      let e := Est (e_par e) (e_bin e) (Some (ncols K x)) (e_train e) (e_solver e) (e_prev e) (e_fit e) (e_tree e) in
      if negb (lab_ok K x y) then (e, Raise)
      else
      let e := Est (e_par e) (e_bin e) (e_ncols e) (Some (x, y)) (e_solver e) (e_prev e) (e_fit e) (e_tree e) in
      if negb (handler_ok K (e_par e)) then (e, Stop)
      else
      let s := if should_reset e then new_solver K (e_par e)
               else match e_solver e with Some (s, _) => upd_solver K (e_par e) s | None => new_solver K (e_par e) end in
      let (s', o) := solve K s x y in
      let e := Est (e_par e) (e_bin e) (e_ncols e) (e_train e) (Some (s', e_par e)) (e_prev e) (e_fit e) (e_tree e) in
      match o with
      | None => (e, Raise)
      | Some None => (Est (e_par e) (e_bin e) (e_ncols e) (e_train e) (e_solver e) (e_prev e) None (e_tree e), Ans false)
      | Some (Some r) =>
        (Est (e_par e) (e_bin e) (e_ncols e) (e_train e) (e_solver e) (e_prev e) (Some (Some r)) (Some (get_tree_of K s' r)), Ans true)
      end
    end.

(** base.py:288-289: is_fitted; sklearn check_is_fitted looks at the same attribute. *)
Definition is_fitted (e : est) : bool := match e_fit e with Some _ => true | None => false end.

(** base.py:211-220 (reset=False) and 186-207: preparing new data. *)
Definition prepare (e : est) (raw : Raw) : option Tab :=
  match e_bin e with
  | None => None
  | Some b => match bin_apply K b raw with
              | None => None
              | Some x => if tab_ok K x then match e_ncols e with Some n => if Nat.eqb (ncols K x) n then Some x else None | None => Some x end else None
              end
  end.

(** base.py:291-309: predict. *)
Definition e_predict (e : est) (raw : Raw) : est * answer Pre :=
  if negb (is_fitted e) then (e, NotFitted)
  else match prepare e raw, e_solver e, e_fit e with
  | Some x, Some (s, p), Some (Some r) =>
    let (s', o) := predict_of K s r x in
    (Est (e_par e) (e_bin e) (e_ncols e) (e_train e) (Some (s', p)) (e_prev e) (e_fit e) (e_tree e),
     match o with Some a => Ans a | None => Raise end)
  | _, _, _ => (e, Raise)
  end.

(** base.py:311-331: score. *)
Definition e_score (e : est) (raw : Raw) (y : Lab) : est * answer Sco :=
  if negb (is_fitted e) then (e, NotFitted)
  else match prepare e raw, e_solver e, e_fit e with
  | Some x, Some (s, p), Some (Some r) =>
    if negb (lab_ok K x y) then (e, Raise)
    else
    let (s', o) := score_of K s r x y in
    (Est (e_par e) (e_bin e) (e_ncols e) (e_train e) (Some (s', p)) (e_prev e) (e_fit e) (e_tree e),
     match o with Some a => Ans a | None => Raise end)
  | _, _, _ => (e, Raise)
  end.

(** base.py:353-365: get_depth (get_n_leaves is the same). *)
Definition e_depth (e : est) : answer nat :=
  match e_fit e with None => NotFitted | Some None => Raise | Some (Some r) => Ans (depth_of K r) end.

(** base.py:367-372: get_tree; print_tree (406-425) and export_dot (427-445) start the same. *)
Definition e_get_tree (e : est) : answer Tre :=
  match e_tree e with None => NotFitted | Some t => Ans t end.

(** The calls of a user. *)
Inductive ecall := CSet (p : Par) | CFit (raw : Raw) (y : Lab) | CPredict (raw : Raw) | CScore (raw : Raw) (y : Lab) | CDepth | CTree.
Inductive evalue := VNone | VFit (a : answer bool) | VPredict (a : answer Pre) | VScore (a : answer Sco) | VDepth (a : answer nat) | VTree (a : answer Tre).
Definition estep (e : est) (c : ecall) : est * evalue :=
  match c with
  | CSet p => (Est p (e_bin e) (e_ncols e) (e_train e) (e_solver e) (e_prev e) (e_fit e) (e_tree e), VNone)
  | CFit raw y => let (e', a) := e_fit_call e raw y in (e', VFit a)
  | CPredict raw => let (e', a) := e_predict e raw in (e', VPredict a)
  | CScore raw y => let (e', a) := e_score e raw y in (e', VScore a)
  | CDepth => (e, VDepth (e_depth e))
  | CTree => (e, VTree (e_get_tree e))
  end.
Fixpoint erun (e : est) (cs : list ecall) : est * list evalue :=
  match cs with
  | [] => (e, [])
  | c :: cs' => let (e1, v) := estep e c in let (e2, vs) := erun e1 cs' in (e2, v :: vs)
  end.
End Estimator.
