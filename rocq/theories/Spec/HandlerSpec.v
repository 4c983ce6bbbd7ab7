(** What is seen of event handlers, which programs are allowed, and who owns a solver (C84). *)
From Verif Require Export Model.HandlerCopies.

(** What is seen of a handler: its members, and the contents of its solver if it has one. *)
Definition view (w : world) (i : nat) : option (hplain * option solver) :=
  match get (w_handlers w) i with
  | None => None
  | Some h => Some (e_plain h, match e_solver h with None => None | Some a => get (w_solvers w) a end)
  end.
Definition exists_handler (w : world) (i : nat) : Prop := get (w_handlers w) i <> None.
Definition has_solver (w : world) (i : nat) : Prop := exists p q, view w i = Some (p, Some q).
(** The documented use: objects exist; only handlers that were given a solver are copied; solvers are of the class used everywhere. *)
Definition allowed (w : world) (c : hcmd) : Prop :=
  match c with
  | HNew | HNewFor _ _ _ _ | HFromModel MNone | HFromModel MOther => True
  | HCopy i | HFromModel (MOurs i) => has_solver w i
  | HAssign i j => exists_handler w i /\ has_solver w j
  | HSet i q _ => exists_handler w i /\ o_clp q = true
  | HEdit i _ | HDestroy i => exists_handler w i
  | UDelete a => In a (w_user w)
  end.
Inductive history : world -> Prop :=
| hi_start : history world0
| hi_step w c w' : history w -> allowed w c -> hexec w c = Some w' -> history w'.
(** Who can reach a solver: a handler, or the user it was handed to. *)
Definition owns (w : world) (o : option nat) (a : nat) : Prop :=
  match o with
  | Some i => exists h, get (w_handlers w) i = Some h /\ e_solver h = Some a
  | None => In a (w_user w)
  end.
Definition in_memory (w : world) (a : nat) : Prop := get (w_solvers w) a <> None.
(** The handlers a command writes. *)
Definition touches (c : hcmd) (k : nat) : Prop :=
  match c with HAssign i _ | HSet i _ _ | HEdit i _ | HDestroy i => i = k | _ => False end.
(** Careful programs give a solver to a handler at most once, and assign only to handlers that have none. *)
Definition careful_step (w : world) (c : hcmd) : Prop :=
  match c with HAssign i _ | HSet i _ _ => ~ has_solver w i | _ => True end.
Inductive careful : world -> Prop :=
| ca_start : careful world0
| ca_step w c w' : careful w -> allowed w c -> careful_step w c -> hexec w c = Some w' -> careful w'.
(** The same members but for parent_. *)
Definition with_parent (p : option (option nat)) (s : hplain) : hplain :=
  {| e_owner := e_owner s; e_max := e_max s; e_ncuts := e_ncuts s; e_time := e_time s; e_keep := e_keep s; e_ontree := e_ontree s; e_leaf := e_leaf s;
     e_nodes := e_nodes s; e_obj := e_obj s; e_lower := e_lower s; e_upper := e_upper s; e_stats := e_stats s; e_pruned := e_pruned s;
     e_final := e_final s; e_saved := e_saved s; e_cuts := e_cuts s; e_current := e_current s; e_parent := p; e_info := e_info s;
     e_child := e_child s; e_prune := e_prune s; e_end := e_end s; e_found := e_found s |}.
