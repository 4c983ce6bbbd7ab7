(** Construction, copying, assignment and deletion of the event handler of the partial tree (src/branch/VPCEventHandler.cpp,
    include/VPCEventHandler.hpp), which owns a copy of the original solver, and of the point-ray LP (src/cut/PRLP.cpp 23-57, 442-473).
    Solvers on the heap are cells, deleted ones are [None]; addresses are never reused.  [None] as a result: undefined behaviour.
    The handler's events (C28-C33, C71) change only the other members ([HEdit]): they read the original solver. *)
From Verif Require Export Prelude Model.TextUtil Model.Parameters Model.NodeTable.
#[local] Open Scope Q_scope.

(** A solver, as far as it is read here (external): is it an OsiClpSolverInterface (the SolverInterface of SolverInterface.hpp),
    its column bounds, and everything else. *)
Record solver := { o_clp : bool; o_lower : list Q; o_upper : list Q; o_rest : list Z }.
(** VPCEventHandler.hpp:26-46: a row of the statistics and its three vectors of changed bounds. *)
Definition nstat := (nrow * (list Z * list Z * list Q))%type.
(** VPCEventHandler.hpp:80, 177-212, all members but [originalSolver_]; cuts by their contents (the unique_ptr is never NULL).
    [e_parent]: parent_, [None]: never written; pointers into Cbc by number. *)
Record hplain := {
  e_owner : option nat; e_max : Z; e_ncuts : Z; e_time : Q; e_keep : bool; e_ontree : Z; e_leaf : Z; e_nodes : Z; e_obj : Q;
  e_lower : list Q; e_upper : list Q; e_stats : list nstat; e_pruned : list nstat; e_final : list Z; e_saved : list Q;
  e_cuts : list (list (Z * Q) * Q); e_current : list nat; e_parent : option (option nat); e_info : option nat; e_child : option nat;
  e_prune : Z; e_end : bool; e_found : bool }.
(** The handler; [e_solver]: NULL or an address. *)
Record handler := { e_plain : hplain; e_solver : option nat }.
(** All solvers, all handlers, and the solvers handed to the user by [setOriginalSolver] and not yet deleted. *)
Record world := { w_solvers : list (option solver); w_handlers : list (option handler); w_user : list nat }.
(** The object at an address, if it is there. *)
Definition get {A} (l : list (option A)) (i : nat) : option A := match nth_error l i with Some x => x | None => None end.
(** An object is written ([Some]) or deleted ([None]). *)
Fixpoint upd {A} (l : list (option A)) (i : nat) (x : option A) : list (option A) :=
  match l, i with [], _ => [] | _ :: r, O => x :: r | c :: r, S j => c :: upd r j x end.

(** VPCEventHandler.cpp:1082-1107: the members written by initialize(NULL); [p]: parent_ before. *)
Definition plain_null (p : option (option nat)) : hplain :=
  {| e_owner := None; e_max := 0; e_ncuts := 0; e_time := 0; e_keep := false; e_ontree := 0; e_leaf := 0; e_nodes := 0; e_obj := DBL_MAXv;
     e_lower := []; e_upper := []; e_stats := []; e_pruned := []; e_final := []; e_saved := []; e_cuts := []; e_current := [];
     e_parent := p; e_info := None; e_child := None; e_prune := 0; e_end := false; e_found := false |}.
(** VPCEventHandler.cpp:327-335: the constructor for a disjunction. *)
Definition plain_for (owner : nat) (m : Z) (t : Q) (keep : bool) : hplain :=
  {| e_owner := Some owner; e_max := m; e_ncuts := 0; e_time := t; e_keep := keep; e_ontree := 0; e_leaf := 0; e_nodes := 0; e_obj := DBL_MAXv;
     e_lower := []; e_upper := []; e_stats := []; e_pruned := []; e_final := []; e_saved := []; e_cuts := []; e_current := [];
     e_parent := None; e_info := None; e_child := None; e_prune := 0; e_end := false; e_found := false |}.
(** VPCEventHandler.cpp:1056-1080: the members copied by initialize(source). *)
Definition plain_from (p : option (option nat)) (s : hplain) : hplain :=
  {| e_owner := e_owner s; e_max := e_max s; e_ncuts := e_ncuts s; e_time := e_time s; e_keep := e_keep s; e_ontree := e_ontree s; e_leaf := e_leaf s;
     e_nodes := e_nodes s; e_obj := e_obj s; e_lower := e_lower s; e_upper := e_upper s; e_stats := e_stats s; e_pruned := e_pruned s;
     e_final := e_final s; e_saved := e_saved s; e_cuts := e_cuts s; e_current := e_current s; e_parent := p; e_info := e_info s;
     e_child := e_child s; e_prune := e_prune s; e_end := e_end s; e_found := e_found s |}.
(** VPCEventHandler.cpp:1065: [originalSolver_ = dynamic_cast<SolverInterface*>(source->originalSolver_->clone())]; undefined if there is
    none; the clone of a solver of another class would be lost and NULL stored. *)
Definition clone_solver (solvers : list (option solver)) (a : option nat) : option (list (option solver) * option nat) :=
  match a with
  | None => None
  | Some a => match get solvers a with
              | None => None
              | Some q => Some (solvers ++ [Some q], if o_clp q then Some (length solvers) else None)
              end
  end.
(** VPCEventHandler.cpp:1055-1108 [initialize]; [this]: parent_ before. *)
Definition h_initialize (w : list (option solver)) (this : option (option nat)) (source : option handler) : option (list (option solver) * handler) :=
  match source with
  | None => Some (w, {| e_plain := plain_null this; e_solver := None |})
  | Some s => match clone_solver w (e_solver s) with
              | None => None
              | Some (w', a) => Some (w', {| e_plain := plain_from this (e_plain s); e_solver := a |})
              end
  end.
(** VPCEventHandler.cpp:1035-1050 [setOriginalLB], [setOriginalUB]: as many numbers as the solver has columns. *)
Definition with_bounds (p : hplain) (q : solver) : hplain :=
  {| e_owner := e_owner p; e_max := e_max p; e_ncuts := e_ncuts p; e_time := e_time p; e_keep := e_keep p; e_ontree := e_ontree p; e_leaf := e_leaf p;
     e_nodes := e_nodes p; e_obj := e_obj p; e_lower := o_lower q; e_upper := o_upper q; e_stats := e_stats p; e_pruned := e_pruned p;
     e_final := e_final p; e_saved := e_saved p; e_cuts := e_cuts p; e_current := e_current p; e_parent := e_parent p; e_info := e_info p;
     e_child := e_child p; e_prune := e_prune p; e_end := e_end p; e_found := e_found p |}.

(** What Cbc's model has as its event handler (external): none, one of another class, or one of ours. *)
Inductive modelhandler := MNone | MOther | MOurs (i : nat).
(** What a program does. *)
Inductive hcmd :=
| HNew                                                    (* default constructor *)
| HNewFor (owner : nat) (m : Z) (t : Q) (keep : bool)     (* the constructor for a disjunction *)
| HCopy (i : nat)                                         (* copy constructor, clone, CbcModel::passInEventHandler *)
| HFromModel (m : modelhandler)                           (* the constructor with a model *)
| HAssign (i j : nat)                                     (* handler i = j *)
| HSet (i : nat) (q : solver) (return_old : bool)         (* setOriginalSolver *)
| HEdit (i : nat) (f : hplain -> hplain)                  (* events *)
| HDestroy (i : nat)
| UDelete (a : nat).                                      (* the user deletes a solver handed out *)
(** A handler is replaced, the solvers too. *)
Definition put_handler (w : world) (s : list (option solver)) (i : nat) (h : handler) : world :=
  {| w_solvers := s; w_handlers := upd (w_handlers w) i (Some h); w_user := w_user w |}.
(** A new handler. *)
Definition add_handler (w : world) (s : list (option solver)) (h : handler) : world :=
  {| w_solvers := s; w_handlers := w_handlers w ++ [Some h]; w_user := w_user w |}.
(** One step; VPCEventHandler.cpp:323-375 and 1022-1042.  Line 367-373: assignment has no test for self-assignment around [initialize].
    Line 1025-1027: the user gets a CLONE of the old solver; the old one itself is overwritten in line 1029.  Line 1035: undefined if the
    solver is of another class (the cast of a pointer gives NULL, it does not throw). *)
Definition hexec (w : world) (c : hcmd) : option world :=
  match c with
  | HNew => Some (add_handler w (w_solvers w) {| e_plain := plain_null None; e_solver := None |})
  | HNewFor o m t k => Some (add_handler w (w_solvers w) {| e_plain := plain_for o m t k; e_solver := None |})
  | HCopy i =>
      match get (w_handlers w) i with
      | None => None
      | Some h => match h_initialize (w_solvers w) None (Some h) with None => None | Some (s, h') => Some (add_handler w s h') end
      end
  | HFromModel m =>
      match m with
      | MNone | MOther => match h_initialize (w_solvers w) None None with None => None | Some (s, h') => Some (add_handler w s h') end
      | MOurs i =>
          match get (w_handlers w) i with
          | None => None
          | Some h => match h_initialize (w_solvers w) None (Some h) with None => None | Some (s, h') => Some (add_handler w s h') end
          end
      end
  | HAssign i j =>
      match get (w_handlers w) i, get (w_handlers w) j with
      | Some this, Some h => match h_initialize (w_solvers w) (e_parent (e_plain this)) (Some h) with None => None | Some (s, h') => Some (put_handler w s i h') end
      | _, _ => None
      end
  | HSet i q ret =>
      match get (w_handlers w) i with
      | None => None
      | Some h =>
          if negb (o_clp q) then None
          else
            let '(s, user) := match (if ret then e_solver h else None) with
                              | None => (Some (w_solvers w), w_user w)
                              | Some a => match get (w_solvers w) a with
                                          | None => (None, w_user w)
                                          | Some old => (Some (w_solvers w ++ [Some old]), length (w_solvers w) :: w_user w)
                                          end
                              end in
            match s with
            | None => None
            | Some s => Some {| w_solvers := s ++ [Some q];
                                w_handlers := upd (w_handlers w) i (Some {| e_plain := with_bounds (e_plain h) q; e_solver := Some (length s) |});
                                w_user := user |}
            end
      end
  | HEdit i f =>
      match get (w_handlers w) i with
      | None => None
      | Some h => Some (put_handler w (w_solvers w) i {| e_plain := f (e_plain h); e_solver := e_solver h |})
      end
  | HDestroy i =>
      match get (w_handlers w) i with
      | None => None
      | Some h =>
          match (match e_solver h with None => Some (w_solvers w) | Some a => match get (w_solvers w) a with None => None | Some _ => Some (upd (w_solvers w) a None) end end) with
          | None => None
          | Some s => Some {| w_solvers := s; w_handlers := upd (w_handlers w) i None; w_user := w_user w |}
          end
      end
  | UDelete a =>
      match get (w_solvers w) a with
      | None => None
      | Some _ => Some {| w_solvers := upd (w_solvers w) a None; w_handlers := w_handlers w; w_user := remove Nat.eq_dec a (w_user w) |}
      end
  end.
(** Nothing yet. *)
Definition world0 : world := {| w_solvers := []; w_handlers := []; w_user := [] |}.

(** PartialBBDisjunction.cpp:441-462 [generatePartialBBTree] with 192-282 of prepareDisjunction, as far as handlers are concerned: the handler
    is made for the disjunction and given the solver; passInEventHandler (line 419) clones it; [run]: what the events of the search make of
    the clone; the first one is deleted, and at the end the clone with the model.  Handlers are numbered [n], [n + 1]. *)
Definition tree_commands (n owner : nat) (m : Z) (t : Q) (keep : bool) (q : solver) (run : list (hplain -> hplain)) : list hcmd :=
  [HNewFor owner m t keep; HSet n q false; HCopy n] ++ map (HEdit (S n)) run ++ [HDestroy n; HDestroy (S n)].
(** Several commands. *)
Fixpoint run_all (w : world) (cs : list hcmd) : option world :=
  match cs with [] => Some w | c :: r => match hexec w c with None => None | Some w' => run_all w' r end end.

(** ** The point-ray LP *)
(** PRLP.hpp:26-37: the members of the class itself; [l_rest]: owner, disj, disjID, prlpData, nonZeroColIndex, density. *)
Record prlp_members := { l_points : Z; l_rays : Z; l_ortho : list Q; l_tried : Z; l_cuts : Z; l_failures : Z; l_rest : list Z }.
(** A point-ray LP: these members, and the LP of the base class OsiClpSolverInterface (rows of coefficients and right-hand sides; objective). *)
Record prlp := { l_mem : prlp_members; l_rows : list (list Q * Q); l_objective : list Q }.
(** PRLP.cpp:37-57 and 444-457: the copy constructor and clone do not pass the source to the base class, which is constructed empty. *)
Definition prlp_copy (s : prlp) : prlp := {| l_mem := l_mem s; l_rows := []; l_objective := [] |}.
(** PRLP.cpp:46-52: operator= does not call that of the base class. *)
Definition prlp_assign (this s : prlp) : prlp := {| l_mem := l_mem s; l_rows := l_rows this; l_objective := l_objective this |}.
