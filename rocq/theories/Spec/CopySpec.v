(** What a user can see of disjunctions and sets of disjunctions, and which programs are allowed (C83). *)
From Verif Require Export Model.Copies.
#[local] Open Scope Q_scope.

(** What is seen of a term: its members, and the contents of its basis if it has one. *)
Definition term_view := (tplain * option basis)%type.
Definition view_term (h : heap) (t : term) : term_view := (t_plain t, match t_basis t with Some a => cell h a | None => None end).
(** What is seen of a disjunction: its members, and its terms. *)
Definition view := (plain * list term_view)%type.
Definition view_of (p : prog) (i : nat) : option view :=
  match the_disj p i with Some d => Some (d_plain d, map (view_term (g_heap p)) (d_terms d)) | None => None end.
(** What is seen of a set: its members, and its disjunctions. *)
Definition set_view_of (p : prog) (s : nat) : option (splain * list (option view)) :=
  match the_set p s with Some x => Some (s_plain x, map (view_of p) (s_disjs x)) | None => None end.

(** The same members but for one. *)
Definition set_id (i : Z) (d : plain) : plain :=
  {| p_id := i; p_name := p_name d; p_best := p_best d; p_worst := p_worst d; p_iobj := p_iobj d; p_isol := p_isol d; p_cvar := p_cvar d;
     p_cbound := p_cbound d; p_cvalue := p_cvalue d; p_root_obj := p_root_obj d; p_cineqs := p_cineqs d; p_num_terms := p_num_terms d;
     p_params := p_params d; p_timer := p_timer d; p_own := p_own d |}.
Definition set_params (P : params) (d : plain) : plain :=
  {| p_id := p_id d; p_name := p_name d; p_best := p_best d; p_worst := p_worst d; p_iobj := p_iobj d; p_isol := p_isol d; p_cvar := p_cvar d;
     p_cbound := p_cbound d; p_cvalue := p_cvalue d; p_root_obj := p_root_obj d; p_cineqs := p_cineqs d; p_num_terms := p_num_terms d;
     p_params := P; p_timer := p_timer d; p_own := p_own d |}.
Definition set_rounds (n : option Z) (d : plain) : plain :=
  {| p_id := p_id d; p_name := p_name d; p_best := p_best d; p_worst := p_worst d; p_iobj := p_iobj d; p_isol := p_isol d; p_cvar := p_cvar d;
     p_cbound := p_cbound d; p_cvalue := p_cvalue d; p_root_obj := p_root_obj d; p_cineqs := p_cineqs d; p_num_terms := p_num_terms d;
     p_params := p_params d; p_timer := p_timer d;
     p_own := match p_own d with Split v => Split v | Tree r b _ => Tree r b n end |}.
Definition rounds_of (d : plain) : option Z := match p_own d with Split _ => None | Tree _ _ n => n end.
Definition same_kind (a b : plain) : Prop := match p_own a, p_own b with Split _, Split _ | Tree _ _ _, Tree _ _ _ => True | _, _ => False end.

(** Which commands a program may use: the objects exist, and it deletes only what it made itself and has not deleted. *)
Definition allowed (p : prog) (c : cmd) : Prop :=
  match c with
  | DNew _ _ | SNew => True
  | DCopy i _ | DAddTerm i _ _ _ | DEdit i _ | DSetupAsNew i => the_disj p i <> None
  | DAssign i j _ => the_disj p i <> None /\ the_disj p j <> None
  | DTermAssign i k j l =>
      (exists d, the_disj p i = Some d /\ (k < length (d_terms d))%nat) /\ (exists e, the_disj p j = Some e /\ (l < length (d_terms e))%nat)
  | DDestroy i => In i (g_mine p)
  | SCopy s | SSetupAsNew s | SDestroy s => the_set p s <> None
  | SAssign s t => the_set p s <> None /\ the_set p t <> None
  | SAdd s i => the_set p s <> None /\ the_disj p i <> None
  end.
(** The programs: any allowed commands in any order. *)
Inductive history : prog -> Prop :=
| h_start : history prog0
| h_step p c p' : history p -> allowed p c -> exec p c = Some p' -> history p'.
(** From a state by allowed commands to a state, and the commands. *)
Inductive later (p : prog) : list cmd -> prog -> Prop :=
| l_none : later p [] p
| l_one cs q c r : later p cs q -> allowed q c -> exec q c = Some r -> later p (cs ++ [c]) r.

(** The disjunction a command writes. *)
Definition writes (c : cmd) (i : nat) : Prop :=
  match c with
  | DAssign j _ _ | DAddTerm j _ _ _ | DTermAssign j _ _ _ | DEdit j _ | DSetupAsNew j => i = j
  | _ => False
  end.
(** The disjunctions a command deletes. *)
Definition deletes (p : prog) (c : cmd) (i : nat) : Prop :=
  match c with
  | DDestroy j => i = j
  | SDestroy s => exists x, the_set p s = Some x /\ In i (s_disjs x)
  | _ => False
  end.
(** The set a command writes or deletes. *)
Definition writes_set (c : cmd) (s : nat) : Prop :=
  match c with SAssign t _ | SAdd t _ | SSetupAsNew t | SDestroy t => s = t | _ => False end.

(** Assigning to a set, or setting it up as new, while it holds disjunctions. *)
Definition drops (p : prog) (c : cmd) : Prop :=
  match c with
  | SAssign s t => s <> t /\ exists x, the_set p s = Some x /\ s_disjs x <> []
  | SSetupAsNew s => exists x, the_set p s = Some x /\ s_disjs x <> []
  | _ => False
  end.
(** Programs that never do that. *)
Inductive careful : prog -> Prop :=
| c_start : careful prog0
| c_step p c p' : careful p -> allowed p c -> ~ drops p c -> exec p c = Some p' -> careful p'.
(** A disjunction the program can still delete: one of its own, or one of a set. *)
Definition reachable (p : prog) (i : nat) : Prop := In i (g_mine p) \/ exists s x, the_set p s = Some x /\ In i (s_disjs x).

(** Ids are positions. *)
Definition ids_are_positions (p : prog) (s : nat) : Prop :=
  forall x k i d, the_set p s = Some x -> nth_error (s_disjs x) k = Some i -> the_disj p i = Some d -> p_id (d_plain d) = Z.of_nat k.
