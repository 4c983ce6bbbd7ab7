(** Copying, assigning, emptying and deleting disjunctions and sets of disjunctions: DisjunctiveTerm, Disjunction, DisjunctionSet
    (src/disjunction/Disjunction.cpp, include/common/Disjunction.hpp), VPCDisjunction, SplitDisjunction, PartialBBDisjunction.
    Objects created by new (bases of terms; disjunctions) are cells of two heaps, deleted cells are [None]; addresses are never reused.
    [None] as a result: undefined behaviour (a deleted object is used or deleted again).  Bases, inequalities and parameters are values:
    their own copying is that of CoinWarmStart, OsiRowCut and VPCParameters. *)
From Verif Require Export Prelude Model.TextUtil Model.Parameters.
#[local] Open Scope Q_scope.

(** A warm start basis, by its statuses (external, CoinWarmStartBasis). *)
Definition basis := list Z.
(** An inequality (external, OsiRowCut). *)
Definition rowcut := (list (Z * Q) * Q)%type.

(** ** Members *)
(** Disjunction.hpp:35-45: the members of DisjunctiveTerm but [basis]. *)
Record tplain := { t_obj : Q; t_var : list Z; t_bound : list Z; t_value : list Q; t_feasible : bool; t_ineqs : list rowcut }.
(** Disjunction.hpp:35-46; [t_basis]: NULL or the address of the basis. *)
Record term := { t_plain : tplain; t_basis : option nat }.
(** PartialBBDisjunction.hpp:40-63 [RootTerm]. *)
Record rootterm := { r_var : Z; r_val : Q; r_boundD : Q; r_boundU : Q }.
(** PartialBBDisjunction.hpp:72-93 [PartialBBDisjunctionData]. *)
Record bbdata := { n_on_tree : Z; n_nodes : Z; n_pruned : Z; n_min_depth : Z; n_max_depth : Z; n_fixed : Z }.
(** The two classes of disjunctions with their own members: SplitDisjunction.hpp:15-60, PartialBBDisjunction.hpp:68-93.
    [rounds]: num_rounds, [None]: never written (no constructor writes it). *)
Inductive own := Split (var : Z) | Tree (root : rootterm) (data : bbdata) (rounds : option Z).
(** Disjunction.hpp:73-102 and VPCDisjunction.hpp:26-31, all members but [terms]; [p_timer]: the pointer (not owned). *)
Record plain := {
  p_id : Z; p_name : text; p_best : Q; p_worst : Q; p_iobj : Q; p_isol : list Q;
  p_cvar : list Z; p_cbound : list Z; p_cvalue : list Q; p_root_obj : Q; p_cineqs : list rowcut; p_num_terms : Z;
  p_params : params; p_timer : option nat; p_own : own }.
(** A disjunction: its members and the vector [terms]. *)
Record disj := { d_plain : plain; d_terms : list term }.
(** Disjunction.hpp:166-182: the members of DisjunctionSet; the disjunctions by their addresses. *)
Record splain := { s_best : Q; s_best_i : Z; s_worst : Q; s_worst_i : Z; s_iobj : Q; s_iobj_i : Z; s_isol : list Q }.
(** Disjunction.hpp:163-182. *)
Record dset := { s_plain : splain; s_disjs : list nat }.

(** ** Bases on the heap *)
Definition heap := list (option basis).
(** The cell at an address ([None]: not there or deleted). *)
Definition cell (h : heap) (a : nat) : option basis := match nth_error h a with Some c => c | None => None end.
(** The cell is marked as deleted. *)
Fixpoint kill {A} (h : list (option A)) (a : nat) : list (option A) :=
  match h, a with [], _ => [] | _ :: r, O => None :: r | c :: r, S a' => c :: kill r a' end.
(** A computation on the heap of bases; [None]: undefined behaviour. *)
Definition M (A : Type) := heap -> option (heap * A).
(** Nothing is done. *)
Definition ret {A} (a : A) : M A := fun h => Some (h, a).
(** One after the other. *)
Definition bind {A B} (m : M A) (f : A -> M B) : M B := fun h => match m h with Some (h', a) => f a h' | None => None end.
(** [if (basis) delete basis;] Disjunction.cpp:52-55 and 77-80. *)
Definition del_basis (p : option nat) : M unit := fun h =>
  match p with None => Some (h, tt) | Some a => match cell h a with Some _ => Some (kill h a, tt) | None => None end end.
(** [if (source->basis) basis = source->basis->clone();] Disjunction.cpp:56-58. *)
Definition clone_basis (p : option nat) : M (option nat) := fun h =>
  match p with None => Some (h, None) | Some a => match cell h a with Some b => Some (h ++ [Some b], Some (length h)) | None => None end end.

(** ** DisjunctiveTerm *)
(** Disjunction.cpp:61-66: the members of a new term. *)
Definition tplain_new : tplain := {| t_obj := DBL_MAXv; t_var := []; t_bound := []; t_value := []; t_feasible := false; t_ineqs := [] |}.
(** Disjunction.cpp:75-82 [clear]. *)
Definition term_clear (t : term) : M term := bind (del_basis (t_basis t)) (fun _ => ret {| t_plain := t_plain t; t_basis := None |}).
(** Disjunction.cpp:46-70 [initialize]. *)
Definition term_initialize (this : term) (source : option term) : M term :=
  match source with
  | Some s => bind (del_basis (t_basis this)) (fun _ => bind (clone_basis (t_basis s)) (fun b => ret {| t_plain := t_plain s; t_basis := b |}))
  | None => bind (term_clear this) (fun _ => ret {| t_plain := tplain_new; t_basis := None |})
  end.
(** Disjunction.cpp:20-22: the copy constructor ([basis] is NULL before, Disjunction.hpp:45). *)
Definition term_copy (s : term) : M term := term_initialize {| t_plain := tplain_new; t_basis := None |} (Some s).
(** Disjunction.cpp:25-27: the destructor. *)
Definition term_destroy (t : term) : M unit := bind (term_clear t) (fun _ => ret tt).

(** ** std::vector of terms (external; DisjunctiveTerm has no move constructor, so elements are copied) *)
(** Destruction of elements. *)
Fixpoint destroy_all (ts : list term) : M unit :=
  match ts with [] => ret tt | t :: r => bind (term_destroy t) (fun _ => destroy_all r) end.
(** Copies of elements, in order. *)
Fixpoint copy_all (ts : list term) : M (list term) :=
  match ts with [] => ret [] | t :: r => bind (term_copy t) (fun t' => bind (copy_all r) (fun r' => ret (t' :: r'))) end.
(** Assignment of a vector that fits into the memory already there: elements are assigned as far as there are some, then the rest is
    copied or what is left over destroyed. *)
Fixpoint assign_fit (this source : list term) : M (list term) :=
  match this, source with
  | [], s => copy_all s
  | t, [] => bind (destroy_all t) (fun _ => ret [])
  | t :: r, s :: q => bind (term_initialize t (Some s)) (fun t' => bind (assign_fit r q) (fun r' => ret (t' :: r')))
  end.
(** operator= of the vector; [fits]: no new memory is needed, otherwise everything is copied into new memory first. *)
Definition vec_assign (fits : bool) (this source : list term) : M (list term) :=
  if fits then assign_fit this source else bind (copy_all source) (fun n => bind (destroy_all this) (fun _ => ret n)).
(** push_back; [grow]: new memory is needed: the new element is copied there, then the others, then the old ones are destroyed. *)
Definition vec_push (grow : bool) (this : list term) (t : term) : M (list term) :=
  bind (term_copy t) (fun t' =>
    if grow then bind (copy_all this) (fun n => bind (destroy_all this) (fun _ => ret (n ++ [t']))) else ret (this ++ [t'])).
(** [for (auto& term : terms) term.clear();] Disjunction.cpp:101-103, 129-130 and 383-384. *)
Fixpoint clear_all (ts : list term) : M (list term) :=
  match ts with [] => ret [] | t :: r => bind (term_clear t) (fun t' => bind (clear_all r) (fun r' => ret (t' :: r'))) end.

(** ** Disjunction *)
(** PartialBBDisjunction.hpp:52-62. *)
Definition root_new : rootterm := {| r_var := -1; r_val := 0; r_boundD := DBL_MAXv; r_boundU := DBL_MAXv |}.
(** PartialBBDisjunction.hpp:84-92. *)
Definition data_new : bbdata := {| n_on_tree := 0; n_nodes := 0; n_pruned := 0; n_min_depth := 2147483647; n_max_depth := 0; n_fixed := 0 |}.
(** Disjunction.cpp:116-132 [setupAsNew], the plain members; SplitDisjunction.cpp:65-67 keeps [var]; PartialBBDisjunction.cpp:76-90
    resets root and data (not num_rounds); VPCDisjunction.cpp:50-52 keeps parameters and timer. *)
Definition plain_reset (p : plain) : plain :=
  {| p_id := -1; p_name := []; p_best := DBL_MAXv; p_worst := - DBL_MAXv; p_iobj := DBL_MAXv; p_isol := []; p_cvar := []; p_cbound := []; p_cvalue := [];
     p_root_obj := DBL_MAXv; p_cineqs := []; p_num_terms := 0; p_params := p_params p; p_timer := p_timer p;
     p_own := match p_own p with Split v => Split v | Tree _ _ n => Tree root_new data_new n end |}.
(** setupAsNew, with the terms (Disjunction.cpp:129-131). *)
Definition setupAsNew (d : disj) : M disj :=
  bind (clear_all (d_terms d)) (fun ts => bind (destroy_all ts) (fun _ => ret {| d_plain := plain_reset (d_plain d); d_terms := [] |})).
(** A new object: the constructors without source, SplitDisjunction.cpp:26-38, PartialBBDisjunction.cpp:47-60 (parameters given, or
    those of the constructor of VPCParameters). *)
Definition plain_new (tree : bool) (P : option params) : plain :=
  {| p_id := -1; p_name := []; p_best := DBL_MAXv; p_worst := - DBL_MAXv; p_iobj := DBL_MAXv; p_isol := []; p_cvar := []; p_cbound := []; p_cvalue := [];
     p_root_obj := DBL_MAXv; p_cineqs := []; p_num_terms := 0; p_params := match P with Some q => q | None => new_params end; p_timer := None;
     p_own := if tree then Tree root_new data_new None else Split (-1) |}.
(** The plain members copied by [initialize] with a source: Disjunction.cpp:369-386, VPCDisjunction.cpp:56-66, SplitDisjunction.cpp:173-181,
    PartialBBDisjunction.cpp:290-301 (num_rounds is not copied). *)
Definition plain_copied (this s : plain) (P : option params) : plain :=
  {| p_id := p_id s; p_name := p_name s; p_best := p_best s; p_worst := p_worst s; p_iobj := p_iobj s; p_isol := p_isol s; p_cvar := p_cvar s;
     p_cbound := p_cbound s; p_cvalue := p_cvalue s; p_root_obj := p_root_obj s; p_cineqs := p_cineqs s; p_num_terms := p_num_terms s;
     p_params := match P with Some q => q | None => p_params s end; p_timer := p_timer s;
     p_own := match p_own this, p_own s with
              | Split _, Split v => Split v
              | Tree _ _ n, Tree r d _ => Tree r d n
              | o, _ => o
              end |}.
(** [initialize] with a source, with the terms (Disjunction.cpp:383-385). *)
Definition initialize (fits : bool) (this s : disj) (P : option params) : M disj :=
  bind (clear_all (d_terms this)) (fun ts => bind (vec_assign fits ts (d_terms s)) (fun n => ret {| d_plain := plain_copied (d_plain this) (d_plain s) P; d_terms := n |})).
(** Is it a PartialBBDisjunction. *)
Definition is_tree (d : disj) : bool := match p_own (d_plain d) with Split _ => false | Tree _ _ _ => true end.
(** The copy constructors and [clone], SplitDisjunction.cpp:31-33, 41-43, 59-61, PartialBBDisjunction.cpp:51-53, 59-61, 74-76: a new
    object is initialised from the source. *)
Definition copy (s : disj) (P : option params) : M disj :=
  initialize false {| d_plain := plain_new (is_tree s) None; d_terms := [] |} s P.
(** The destructor, Disjunction.cpp:100-104, and that of the vector. *)
Definition destroy (d : disj) : M unit := bind (clear_all (d_terms d)) (fun ts => destroy_all ts).

(** ** Programs: all disjunctions (on the heap or not) by address, and all sets *)
Record prog := { g_heap : heap; g_disjs : list (option disj); g_sets : list (option dset); g_mine : list nat }.
(** [g_mine]: the disjunctions made by the program itself and not yet deleted, the others belong to sets. *)
Definition the_disj (p : prog) (i : nat) : option disj := match nth_error (g_disjs p) i with Some d => d | None => None end.
(** A set by its number. *)
Definition the_set (p : prog) (i : nat) : option dset := match nth_error (g_sets p) i with Some s => s | None => None end.
(** Writing a place. *)
Fixpoint put {A} (l : list (option A)) (i : nat) (a : A) : list (option A) :=
  match l, i with [], _ => [] | _ :: r, O => Some a :: r | c :: r, S i' => c :: put r i' a end.
(** A new disjunction gets a new address. *)
Definition with_heap (p : prog) (h : heap) : prog := {| g_heap := h; g_disjs := g_disjs p; g_sets := g_sets p; g_mine := g_mine p |}.
(** Changing a disjunction in place. *)
Definition set_disj (p : prog) (h : heap) (i : nat) (d : disj) : prog :=
  {| g_heap := h; g_disjs := put (g_disjs p) i d; g_sets := g_sets p; g_mine := g_mine p |}.
(** Disjunction.cpp:429-437: an empty set's values. *)
Definition splain_new : splain :=
  {| s_best := DBL_MAXv; s_best_i := -1; s_worst := - DBL_MAXv; s_worst_i := -1; s_iobj := DBL_MAXv; s_iobj_i := -1; s_isol := [] |}.
(** Disjunction.cpp:459-477 [updateObjValue] of the set, without index (the id counts). *)
Definition set_values (s : splain) (d : plain) : splain :=
  let lt := Qltb (p_best d) (s_best s) in let gt := Qltb (s_worst s) (p_worst d) in let il := Qltb (p_iobj d) (s_iobj s) in
  {| s_best := if lt then p_best d else s_best s; s_best_i := if lt then p_id d else s_best_i s;
     s_worst := if gt then p_worst d else s_worst s; s_worst_i := if gt then p_id d else s_worst_i s;
     s_iobj := if il then p_iobj d else s_iobj s; s_iobj_i := if il then p_id d else s_iobj_i s;
     s_isol := if il then match p_isol d with [] => s_isol s | x => x end else s_isol s |}.
(** The id is assigned. *)
Definition with_id (d : disj) (i : Z) : disj :=
  {| d_plain := {| p_id := i; p_name := p_name (d_plain d); p_best := p_best (d_plain d); p_worst := p_worst (d_plain d); p_iobj := p_iobj (d_plain d);
                   p_isol := p_isol (d_plain d); p_cvar := p_cvar (d_plain d); p_cbound := p_cbound (d_plain d); p_cvalue := p_cvalue (d_plain d);
                   p_root_obj := p_root_obj (d_plain d); p_cineqs := p_cineqs (d_plain d); p_num_terms := p_num_terms (d_plain d);
                   p_params := p_params (d_plain d); p_timer := p_timer (d_plain d); p_own := p_own (d_plain d) |}; d_terms := d_terms d |}.

(** Copies of several disjunctions at new addresses (Disjunction.cpp:481-485); [None]: one of them is gone. *)
Fixpoint clone_each (p : prog) (l : list nat) : option (prog * list nat) :=
  match l with
  | [] => Some (p, [])
  | a :: r =>
      match the_disj p a with
      | None => None
      | Some d =>
          match copy d None (g_heap p) with
          | None => None
          | Some (h, d') =>
              match clone_each {| g_heap := h; g_disjs := g_disjs p ++ [Some d']; g_sets := g_sets p; g_mine := g_mine p |} r with
              | None => None
              | Some (p', r') => Some (p', length (g_disjs p) :: r')
              end
          end
      end
  end.
(** [for (auto disj : disjunctions) delete disj;] Disjunction.cpp:405-407. *)
Fixpoint delete_each (p : prog) (l : list nat) : option prog :=
  match l with
  | [] => Some p
  | a :: r =>
      match the_disj p a with
      | None => None
      | Some d => match destroy d (g_heap p) with
                  | None => None
                  | Some (h, _) => delete_each {| g_heap := h; g_disjs := kill (g_disjs p) a; g_sets := g_sets p; g_mine := g_mine p |} r
                  end
      end
  end.

(** What a program does with them. *)
Inductive cmd :=
| DNew (tree : bool) (P : option params)                     (* a constructor *)
| DCopy (i : nat) (P : option params)                        (* copy constructor, clone, or copy with other parameters *)
| DAssign (i j : nat) (fits : bool)                          (* disjunction i = j *)
| DAddTerm (i : nat) (t : tplain) (b : option basis) (grow : bool)  (* a local term with a new basis is appended to i *)
| DTermAssign (i k j l : nat)                                (* terms[k] of i = terms[l] of j *)
| DEdit (i : nat) (f : plain -> plain)                       (* plain members are written *)
| DSetupAsNew (i : nat)
| DDestroy (i : nat)
| SNew
| SCopy (s : nat)
| SAssign (s t : nat)
| SAdd (s i : nat)                                           (* addDisjunction *)
| SSetupAsNew (s : nat)
| SDestroy (s : nat).

(** The place of a term is written. *)
Fixpoint put_term (l : list term) (k : nat) (t : term) : list term :=
  match l, k with [], _ => [] | _ :: r, O => t :: r | c :: r, S k' => c :: put_term r k' t end.
(** A set is written. *)
Definition put_set (p : prog) (s : nat) (x : dset) : prog :=
  {| g_heap := g_heap p; g_disjs := g_disjs p; g_sets := put (g_sets p) s x; g_mine := g_mine p |}.
(** One step.  [None]: undefined behaviour (also: an object that does not exist). *)
(** Disjunction.cpp:30-35, 92-113, 369-386, 394-495, Disjunction.hpp:203-207, SplitDisjunction.cpp:26-67 and 302-314,
    VPCEventHandler.cpp:1136-1158. *)
Definition exec (p : prog) (c : cmd) : option prog :=
  match c with
  | DNew tree P =>
      Some {| g_heap := g_heap p; g_disjs := g_disjs p ++ [Some {| d_plain := plain_new tree P; d_terms := [] |}]; g_sets := g_sets p; g_mine := length (g_disjs p) :: g_mine p |}
  | DCopy i P =>
      match the_disj p i with
      | None => None
      | Some d => match copy d P (g_heap p) with
                  | None => None
                  | Some (h, d') => Some {| g_heap := h; g_disjs := g_disjs p ++ [Some d']; g_sets := g_sets p; g_mine := length (g_disjs p) :: g_mine p |}
                  end
      end
  | DAssign i j fits =>
      match the_disj p i, the_disj p j with
      | Some d, Some s => if Nat.eqb i j then Some p                       (* this == &source *)
                          else match initialize fits d s None (g_heap p) with None => None | Some (h, d') => Some (set_disj p h i d') end
      | _, _ => None
      end
  | DAddTerm i t b grow =>
      match the_disj p i with
      | None => None
      | Some d =>
          let (h, ba) := match b with Some x => (g_heap p ++ [Some x], Some (length (g_heap p))) | None => (g_heap p, None) end in
          let local := {| t_plain := t; t_basis := ba |} in
          match bind (vec_push grow (d_terms d) local) (fun ts => bind (term_destroy local) (fun _ => ret ts)) h with
          | None => None
          | Some (h', ts) => Some (set_disj p h' i {| d_plain := d_plain d; d_terms := ts |})
          end
      end
  | DTermAssign i k j l =>
      match the_disj p i, the_disj p j with
      | Some d, Some s =>
          match nth_error (d_terms d) k, nth_error (d_terms s) l with
          | Some x, Some y => if Nat.eqb i j && Nat.eqb k l then Some p    (* this == &source *)
                              else match term_initialize x (Some y) (g_heap p) with
                                   | None => None | Some (h, t) => Some (set_disj p h i {| d_plain := d_plain d; d_terms := put_term (d_terms d) k t |}) end
          | _, _ => None
          end
      | _, _ => None
      end
  | DEdit i f => match the_disj p i with None => None | Some d => Some (set_disj p (g_heap p) i {| d_plain := f (d_plain d); d_terms := d_terms d |}) end
  | DSetupAsNew i =>
      match the_disj p i with
      | None => None
      | Some d => match setupAsNew d (g_heap p) with None => None | Some (h, d') => Some (set_disj p h i d') end
      end
  | DDestroy i =>
      match the_disj p i with
      | None => None
      | Some d => match destroy d (g_heap p) with
                  | None => None
                  | Some (h, _) => Some {| g_heap := h; g_disjs := kill (g_disjs p) i; g_sets := g_sets p; g_mine := remove Nat.eq_dec i (g_mine p) |}
                  end
      end
  | SNew => Some {| g_heap := g_heap p; g_disjs := g_disjs p; g_sets := g_sets p ++ [Some {| s_plain := splain_new; s_disjs := [] |}]; g_mine := g_mine p |}
  | SCopy s =>
      match the_set p s with
      | None => None
      | Some x => match clone_each p (s_disjs x) with
                  | None => None
                  | Some (p', l) => Some {| g_heap := g_heap p'; g_disjs := g_disjs p'; g_sets := g_sets p ++ [Some {| s_plain := s_plain x; s_disjs := l |}]; g_mine := g_mine p |}
                  end
      end
  | SAssign s t =>
      match the_set p s, the_set p t with
      | Some _, Some x => if Nat.eqb s t then Some p                       (* this == &source *)
                          else match clone_each p (s_disjs x) with None => None | Some (p', l) => Some (put_set p' s {| s_plain := s_plain x; s_disjs := l |}) end
      | _, _ => None
      end
  | SAdd s i =>
      match the_set p s, the_disj p i with
      | Some x, Some d =>
          match copy d None (g_heap p) with
          | None => None
          | Some (h, d') =>
              let d2 := with_id d' (Z.of_nat (length (s_disjs x))) in
              Some (put_set {| g_heap := h; g_disjs := g_disjs p ++ [Some d2]; g_sets := g_sets p; g_mine := g_mine p |} s
                            {| s_plain := set_values (s_plain x) (d_plain d2); s_disjs := s_disjs x ++ [length (g_disjs p)] |})
          end
      | _, _ => None
      end
  | SSetupAsNew s => match the_set p s with None => None | Some _ => Some (put_set p s {| s_plain := splain_new; s_disjs := [] |}) end
  | SDestroy s =>
      match the_set p s with
      | None => None
      | Some x => match delete_each p (s_disjs x) with
                  | None => None
                  | Some p' => Some {| g_heap := g_heap p'; g_disjs := g_disjs p'; g_sets := kill (g_sets p') s; g_mine := g_mine p' |}
                  end
      end
  end.
(** Nothing yet. *)
Definition prog0 : prog := {| g_heap := []; g_disjs := []; g_sets := []; g_mine := [] |}.

(** Disjunction.hpp:214-217 [getDisjunction]: the place in the list; [None]: undefined behaviour (a negative index passes the test). *)
Definition getDisjunction (x : dset) (ind : Z) : option (option nat) :=
  if (ind <? Z.of_nat (length (s_disjs x)))%Z then (if (ind <? 0)%Z then None else Some (nth_error (s_disjs x) (Z.to_nat ind))) else Some None.
(** Disjunction.hpp:219-227 [getDisjunctionById]: the first with the id; [None]: undefined behaviour (a deleted disjunction is read). *)
Fixpoint findId (p : prog) (l : list nat) (id : Z) : option (option nat) :=
  match l with
  | [] => Some None
  | i :: r => match the_disj p i with None => None | Some d => if (p_id (d_plain d) =? id)%Z then Some (Some i) else findId p r id end
  end.
(** The same, of a set. *)
Definition getDisjunctionById (p : prog) (x : dset) (id : Z) : option (option nat) := findId p (s_disjs x) id.
