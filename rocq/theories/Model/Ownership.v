(** Who owns what: construction, copying, assignment, set-disjunction and destruction of the cut generator
    (src/cut/CglVPC.cpp:133-215, 293-346, 636-688, 1485) and of VPCSolverInterface
    (src/utility/VPCSolverInterface.cpp:58-115, 159-167, 217-275, 305-358).
    A heap cell is an object created by new; what it contains is not modelled (a clone is one new cell; the
    disjunctions inside a DisjunctionSet are part of its cell).  [None] : undefined behaviour (free or use of
    a cell that is not live, NULL dereferenced, uninitialised member read). *)
From Verif Require Export Prelude.

Inductive kind := KDisj | KSet | KPrlp | KSolver | KCuts | KParams.
(** An object on the heap: what it is and whether it has been deleted. *)
Record cell := { c_kind : kind; c_live : bool }.
(** Addresses are positions; objects are never moved. *)
Definition heap := list cell.
(** Values of pointer members: uninitialised, NULL, address. *)
(** CglVPC.hpp:307-435, VPCSolverInterface.hpp:49-53. *)
Inductive ptr := Undef | Null | Ptr (a : nat).
(** An address that may be used. *)
Definition live (h : heap) (a : nat) : bool := match nth_error h a with Some c => c_live c | None => false end.
(** new (CglVPC.cpp:310, 331, 343, 1485; VPCSolverInterface.cpp:217-337). *)
Definition alloc (k : kind) (h : heap) : heap * ptr := (h ++ [{| c_kind := k; c_live := true |}], Ptr (length h)).
(** The cell is marked as deleted. *)
Fixpoint kill (h : heap) (a : nat) : heap :=
  match h, a with
  | [], _ => []
  | c :: r, O => {| c_kind := c_kind c; c_live := false |} :: r
  | c :: r, S a' => c :: kill r a'
  end.
(** delete; [None]: deleting a dead object (undefined behaviour). *)
Definition free (h : heap) (a : nat) : option heap := if live h a then Some (kill h a) else None.
(** [if (p) delete p;] *)
(** CglVPC.cpp:133-215, VPCSolverInterface.cpp:58-115. *)
Definition del (h : heap) (p : ptr) : option heap := match p with Undef => None | Null => Some h | Ptr a => free h a end.
(** [p->clone()] *)
(** CglVPC.cpp:133-215 and 293-346. *)
Definition clone (k : kind) (h : heap) (p : ptr) : option (heap * ptr) :=
  match p with Ptr a => if live h a then Some (alloc k h) else None | _ => None end.

(** ** The cut generator. Members disjunction, disjunctionSet, prlp, ownsDisjunction ([None]: uninitialised). *)
(** CglVPC.hpp:307-435. *)
Record gen := { m_disj : ptr; m_set : ptr; m_prlp : ptr; m_owns : option bool }.
(** [if (p && owns) delete p;] (CglVPC.cpp:155-156, 186-187, 206-207). *)
Definition del_if (h : heap) (p : ptr) (owns : option bool) : option heap :=
  match p with
  | Undef => None
  | Null => Some h
  | Ptr a => match owns with None => None | Some true => free h a | Some false => Some h end
  end.
(** What [ownIt] becomes (lines 183-185). *)
Definition own_flag (g : gen) (ownIt : Z) : option bool := if (ownIt <? 0)%Z then m_owns g else Some (negb (ownIt =? 0)%Z).
(** setDisjunction, lines 180-196. *)
Definition setDisjunction (h : heap) (g : gen) (src : ptr) (ownIt : Z) : option (heap * gen) :=
  match own_flag g ownIt, del_if h (m_disj g) (m_owns g) with
  | Some o, Some h1 =>
      if o then match clone KDisj h1 src with
                | Some (h2, p) => Some (h2, {| m_disj := p; m_set := m_set g; m_prlp := m_prlp g; m_owns := Some true |})
                | None => None
                end
      else Some (h1, {| m_disj := src; m_set := m_set g; m_prlp := m_prlp g; m_owns := Some false |})
  | _, _ => None
  end.
(** setDisjunctionSet, lines 200-215. *)
Definition setDisjunctionSet (h : heap) (g : gen) (src : ptr) (ownIt : Z) : option (heap * gen) :=
  match own_flag g ownIt, del_if h (m_set g) (m_owns g) with
  | Some o, Some h1 =>
      if o then match clone KSet h1 src with
                | Some (h2, p) => Some (h2, {| m_disj := m_disj g; m_set := p; m_prlp := m_prlp g; m_owns := Some true |})
                | None => None
                end
      else Some (h1, {| m_disj := m_disj g; m_set := src; m_prlp := m_prlp g; m_owns := Some false |})
  | _, _ => None
  end.
(** initialize(&source), lines 641-671 (the pointer members; called by the copy constructor and operator=). *)
Definition init_from (h : heap) (g src : gen) : option (heap * gen) :=
  match m_owns src with
  | None => None
  | Some o =>
      match setDisjunction h g (m_disj src) (if o then 1 else 0)%Z with
      | Some (h1, g1) =>
          match setDisjunctionSet h1 g1 (m_set src) (if o then 1 else 0)%Z with
          | Some (h2, g2) => Some (h2, {| m_disj := m_disj g2; m_set := m_set g2; m_prlp := m_prlp src; m_owns := m_owns g2 |})
          | None => None
          end
      | None => None
      end
  end.
(** Before the body of a constructor runs: prlp has an initialiser (CglVPC.hpp:193), the others do not (211-247). *)
Definition raw_gen : gen := {| m_disj := Undef; m_set := Undef; m_prlp := Null; m_owns := None |}.
(** initialize(NULL), lines 672-679. *)
Definition init_new (h : heap) (g : gen) : option (heap * gen) :=
  match del h (m_prlp g) with
  | Some h1 => Some (h1, {| m_disj := Null; m_set := Null; m_prlp := Null; m_owns := Some false |})
  | None => None
  end.
(** Destructor, lines 154-158. *)
Definition destroy (h : heap) (g : gen) : option heap :=
  match del_if h (m_disj g) (m_owns g) with
  | Some h1 => match del_if h1 (m_set g) (m_owns g) with Some h2 => del h2 (m_prlp g) | None => None end
  | None => None
  end.
(** A call of generateCuts: it ends before line 292 ([Early]); or it goes on, and if no disjunction is set
    it creates one (310), or a set (331, 343), or none (302-306); then a PRLP is created [n] times (1485). *)
Inductive made := MDisj | MSet | MNone.
(** The ways a call of generateCuts can go as far as ownership is concerned, CglVPC.cpp:293-346 and 1485. *)
Inductive gcall := Early | Runs (m : made) (n : nat).
(** CglVPC.cpp:1485 in the loop over the disjunctions: prlp is overwritten each time. *)
Fixpoint new_prlps (h : heap) (p : ptr) (n : nat) : heap * ptr :=
  match n with O => (h, p) | S n' => let '(h1, p1) := alloc KPrlp h in new_prlps h1 p1 n' end.
(** A pointer member is read; NULL is allowed, an uninitialised or dead one is not. *)
Definition used (h : heap) (p : ptr) : bool := match p with Undef => false | Null => true | Ptr a => live h a end.
(** CglVPC.cpp:293-346 and 1485. *)
Definition generate (h : heap) (g : gen) (c : gcall) : option (heap * gen) :=
  match c with
  | Early => Some (h, g)
  | Runs m n =>
      match (match m_disj g, m_set g with
             | Undef, _ => None
             | Null, Undef => None
             | Null, Null =>
                 match m with
                 | MDisj => let '(h1, p) := alloc KDisj h in Some (h1, {| m_disj := p; m_set := Null; m_prlp := m_prlp g; m_owns := Some true |})
                 | MSet => let '(h1, p) := alloc KSet h in Some (h1, {| m_disj := Null; m_set := p; m_prlp := m_prlp g; m_owns := Some true |})
                 | MNone => Some (h, {| m_disj := Null; m_set := Null; m_prlp := m_prlp g; m_owns := Some true |})
                 end
             | _, _ => if used h (m_disj g) && used h (m_set g) then Some (h, g) else None
             end) with
      | None => None
      | Some (h1, g1) => let '(h2, p) := new_prlps h1 (m_prlp g1) n in
                         Some (h2, {| m_disj := m_disj g1; m_set := m_set g1; m_prlp := p; m_owns := m_owns g1 |})
      end
  end.

(** A program using generators: the heap, the disjunctions and sets the user has created and must delete, and
    the generators ([None] once destroyed). *)
Record prog := { p_heap : heap; p_mine : list nat; p_gens : list (option gen) }.
(** A program that has done nothing yet. *)
Definition prog0 : prog := {| p_heap := []; p_mine := []; p_gens := [] |}.
(** The public operations of the cut generator and the user's own new and delete. *)
Inductive cmd :=
| UNew (k : kind) | UDelete (a : nat)
| GNew | GCopy (g : nat) | GAssign (g src : nat)
| GSetDisj (g : nat) (src : ptr) (ownIt : Z) | GSetSet (g : nat) (src : ptr) (ownIt : Z)
| GGenerate (g : nat) (c : gcall) | GDestroy (g : nat).
(** A generator that has not been destroyed. *)
Definition the_gen (p : prog) (i : nat) : option gen := match nth_error (p_gens p) i with Some (Some g) => Some g | _ => None end.
(** The i-th generator is replaced. *)
Fixpoint put {A} (l : list A) (i : nat) (x : A) : list A :=
  match l, i with [], _ => [] | _ :: r, O => x :: r | y :: r, S i' => y :: put r i' x end.
(** The i-th generator after an operation on it. *)
Definition with_gen (p : prog) (i : nat) (r : option (heap * gen)) : option prog :=
  match r with Some (h, g) => Some {| p_heap := h; p_mine := p_mine p; p_gens := put (p_gens p) i (Some g) |} | None => None end.
(** A new generator is added. *)
Definition add_gen (p : prog) (r : option (heap * gen)) : option prog :=
  match r with Some (h, g) => Some {| p_heap := h; p_mine := p_mine p; p_gens := p_gens p ++ [Some g] |} | None => None end.
(** One operation, CglVPC.cpp:133-215, 293-346 and 636-688. *)
Definition exec_cmd (p : prog) (c : cmd) : option prog :=
  match c with
  | UNew k => let '(h, _) := alloc k (p_heap p) in Some {| p_heap := h; p_mine := length (p_heap p) :: p_mine p; p_gens := p_gens p |}
  | UDelete a => match free (p_heap p) a with
                 | Some h => Some {| p_heap := h; p_mine := remove Nat.eq_dec a (p_mine p); p_gens := p_gens p |}
                 | None => None
                 end
  | GNew => add_gen p (init_new (p_heap p) raw_gen)
  | GCopy i => match the_gen p i with Some s => add_gen p (init_from (p_heap p) raw_gen s) | None => None end
  | GAssign i j => if Nat.eqb i j then Some p
                   else match the_gen p i, the_gen p j with Some g, Some s => with_gen p i (init_from (p_heap p) g s) | _, _ => None end
  | GSetDisj i src o => match the_gen p i with Some g => with_gen p i (setDisjunction (p_heap p) g src o) | None => None end
  | GSetSet i src o => match the_gen p i with Some g => with_gen p i (setDisjunctionSet (p_heap p) g src o) | None => None end
  | GGenerate i c => match the_gen p i with Some g => with_gen p i (generate (p_heap p) g c) | None => None end
  | GDestroy i => match the_gen p i with
                  | Some g => match destroy (p_heap p) g with
                              | Some h => Some {| p_heap := h; p_mine := p_mine p; p_gens := put (p_gens p) i None |}
                              | None => None
                              end
                  | None => None
                  end
  end.

(** ** VPCSolverInterface: members solver, cuts, disj, params (no initialisers, VPCSolverInterface.hpp:49-53). *)
Record vsi := { v_solver : ptr; v_cuts : ptr; v_disj : ptr; v_params : ptr }.
(** Members before initialize is called, VPCSolverInterface.hpp:49-53. *)
Definition raw_vsi : vsi := {| v_solver := Undef; v_cuts := Undef; v_disj := Undef; v_params := Undef |}.
(** free, lines 339-358. *)
Definition vsi_free (h : heap) (v : vsi) : option (heap * vsi) :=
  match del h (v_solver v) with
  | Some h1 => match del h1 (v_cuts v) with
    | Some h2 => match del h2 (v_disj v) with
      | Some h3 => match del h3 (v_params v) with
        | Some h4 => Some (h4, {| v_solver := Null; v_cuts := Null; v_disj := Null; v_params := Null |})
        | None => None end | None => None end | None => None end | None => None end.
(** setParams, lines 80-84: delete the old, then copy. *)
Definition vsi_setParams (h : heap) (v : vsi) (param : ptr) : option (heap * vsi) :=
  match del h (v_params v) with
  | Some h1 => match clone KParams h1 param with
               | Some (h2, p) => Some (h2, {| v_solver := v_solver v; v_cuts := v_cuts v; v_disj := v_disj v; v_params := p |})
               | None => None end
  | None => None
  end.
(** initialize, lines 305-337: from a source, or new. *)
Definition vsi_init_from (h : heap) (v s : vsi) : option (heap * vsi) :=
  match vsi_free h v with
  | Some (h0, _) =>
    match clone KSolver h0 (v_solver s) with
    | Some (h1, p1) => match clone KCuts h1 (v_cuts s) with
      | Some (h2, p2) => match clone KDisj h2 (v_disj s) with
        | Some (h3, p3) => vsi_setParams h3 {| v_solver := p1; v_cuts := p2; v_disj := p3; v_params := Null |} (v_params s)
        | None => None end | None => None end | None => None end
  | None => None
  end.
(** VPCSolverInterface.cpp:305-337 without a source. *)
Definition vsi_new (h : heap) : heap * vsi :=
  let '(h1, p1) := alloc KSolver h in let '(h2, p2) := alloc KCuts h1 in let '(h3, p3) := alloc KParams h2 in
  (h3, {| v_solver := p1; v_cuts := p2; v_disj := Null; v_params := p3 |}).
(** setDisjunction, lines 111-115: "if (disj) delete disj; this->disj = disj->clone();" where disj is the
    parameter (it hides the member). *)
Definition vsi_setDisjunction (h : heap) (v : vsi) (disj : ptr) : option (heap * vsi) :=
  match del h disj with
  | Some h1 => match clone KDisj h1 disj with
               | Some (h2, p) => Some (h2, {| v_solver := v_solver v; v_cuts := v_cuts v; v_disj := p; v_params := v_params v |})
               | None => None end
  | None => None
  end.
(** load(si), lines 159-167: delete the solver, clone the given one. *)
Definition vsi_load (h : heap) (v : vsi) (si : ptr) : option (heap * vsi) :=
  match del h (v_solver v) with
  | Some h1 => match clone KSolver h1 si with
               | Some (h2, p) => Some (h2, {| v_solver := p; v_cuts := v_cuts v; v_disj := v_disj v; v_params := v_params v |})
               | None => None end
  | None => None
  end.
(** generateCuts, lines 217-231, after the local generator's run: its disjunction, if it has one, is cloned; the
    generator is destroyed.  [c]: the run. *)
Definition vsi_generate (h : heap) (v : vsi) (c : gcall) : option (heap * vsi) :=
  match init_new h raw_gen with
  | Some (h1, g1) =>
    match generate h1 g1 c with
    | Some (h2, g2) =>
      match (match m_disj g2 with
             | Ptr a => match del h2 (v_disj v) with
                        | Some h3 => match clone KDisj h3 (Ptr a) with Some (h4, p) => Some (h4, p) | None => None end
                        | None => None end
             | Null => Some (h2, v_disj v)
             | Undef => None end) with
      | Some (h5, p) => match destroy h5 g2 with
                        | Some h6 => Some (h6, {| v_solver := v_solver v; v_cuts := v_cuts v; v_disj := p; v_params := v_params v |})
                        | None => None end
      | None => None
      end
    | None => None
    end
  | None => None
  end.
(** applyCuts with clear_cuts, lines 252-255, 263-266. *)
Definition vsi_clear_cuts (h : heap) (v : vsi) : option (heap * vsi) :=
  match v_cuts v with
  | Ptr a => match free h a with
             | Some h1 => let '(h2, p) := alloc KCuts h1 in Some (h2, {| v_solver := v_solver v; v_cuts := p; v_disj := v_disj v; v_params := v_params v |})
             | None => None end
  | _ => None
  end.
