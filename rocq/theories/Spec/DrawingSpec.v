(** Vocabulary for drawings of a search tree: which branchings took place, and what a text of a drawing says. *)
From Coq Require Import String.
From Verif Require Import Prelude Model.EventHandler Model.TextUtil Model.Names Model.TreeDrawing Spec.TreeSpec.
#[local] Open Scope string_scope.
#[local] Open Scope list_scope.
#[local] Open Scope nat_scope.

(** An edge of the tree: from a node to a child, the variable branched on, the branch taken, and what the child is. *)
Inductive kind := Explored | Cut | Open.
Record edge := { e_from : nat; e_to : nat; e_var : nat; e_up : bool; e_kind : kind }.
(** Edges form a tree with root 0: every child has one parent, which is the root or an explored child itself, and has a smaller
    number. *)
Definition explored_node (E : list edge) (v : nat) : Prop := v = 0 \/ exists e, In e E /\ e_to e = v /\ e_kind e = Explored.
Definition is_tree (E : list edge) : Prop :=
  NoDup (map e_to E) /\ forall e, In e E -> e_from e < e_to e /\ explored_node E (e_from e).

(** Searches, told by the branchings that took place: [lab] gives for every node on Cbc's tree (by its current number) the node
    count at which it was created (0 for the root), [G] the edges so far, [k] the node count.  Every branching raises the node
    count. *)
Definition next_lab (st : hst) (lab : nat -> nat) (nd : cnode) (out : outcome) (count : nat) : nat -> nat :=
  let really := match out with Pruned _ _ _ _ => false | _ => true end in
  let c3 := if really then S (h_count2 st) else h_count2 st in
  fun j => if really && Nat.eqb j (h_count2 st) then count else if Nat.eqb j c3 then lab (cn_num nd) else lab j.
Definition branching (lab : nat -> nat) (nd : cnode) (out : outcome) (count : nat) : edge :=
  {| e_from := lab (cn_num nd); e_to := count; e_var := cn_var nd; e_up := cur_up nd;
     e_kind := match out with Pruned _ _ _ _ => Cut | _ => Explored end |}.
Inductive searched (cfg : hcfg) (ints : nat -> bool) (s0 : hst) : hst -> numst -> (nat -> nat) -> list edge -> nat -> Prop :=
| se_start : searched cfg ints s0 s0 num_init (fun _ => 0) [] 0
| se_branch st u lab G k i out nd count st' :
    searched cfg ints s0 st u lab G k -> lawful cfg ints st (ABranch i out) -> nth_error (h_tree st) i = Some nd -> k < count ->
    step cfg st (ABranch i out) = EvGo st' ->
    searched cfg ints s0 st' (step_nums cfg st u (ABranch i out) count) (next_lab st lab nd out count) (G ++ [branching lab nd out count]) count
| se_other st u lab G k a st' :
    searched cfg ints s0 st u lab G k -> lawful cfg ints st a -> (forall i out, a <> ABranch i out) -> step cfg st a = EvGo st' ->
    searched cfg ints s0 st' (step_nums cfg st u a k) lab G k.

(** The branches still open: from a node with two of them both sides, otherwise the side not yet explored; an edge for each,
    to nodes numbered from [from] on. *)
Definition open_sides (nd : cnode) : list bool := if Nat.eqb (cn_left nd) 2 then [negb (cn_up nd); cn_up nd] else [negb (cn_up nd)].
Definition open_branches (lab : nat -> nat) (tree : list cnode) : list (nat * nat * bool) :=
  flat_map (fun nd => map (fun up => (lab (cn_num nd), cn_var nd, up)) (open_sides nd)) tree.
Definition leaves_of (lab : nat -> nat) (tree : list cnode) (from : nat) (L : list edge) : Prop :=
  map (fun e => (e_from e, e_var e, e_up e)) L = open_branches lab tree /\ map e_to L = seq from (List.length L) /\ Forall (fun e => e_kind e = Open) L.
(** At most one child on each side. *)
Definition two_sided (E : list edge) : Prop := NoDup (map (fun e => (e_from e, e_up e)) E).

(** The text of TreePlot: the edges separated by commas, children that are pruned marked with an X. *)
Definition edge_says (e : edge) : text :=
  txt "{" ++ int_text (Z.of_nat (e_from e)) ++ txt "->" ++ int_text (Z.of_nat (e_to e)) ++ match e_kind e with Cut => txt "X" | _ => [] end ++
  txt ", " ++ [quote] ++ int_text (Z.of_nat (e_var e)) ++ [quote] ++ txt "}".
Fixpoint listed (l : list text) : text :=
  match l with
  | [] => []
  | [a] => a
  | a :: r => a ++ txt ", " ++ listed r
  end.
Definition plot_says (E : list edge) : text :=
  txt "TreePlot[{" ++ listed (map edge_says E) ++ txt "}, Automatic, 0, VertexLabeling -> True]".

(** The picture: a child for every edge, to the left for a down branch, to the right for an up branch and none in the middle; the
    colour tells what the child is, its label the variable branched on; nothing else is drawn. *)
Definition slot_of (z : tikz) (v c : nat) : option (nat * nat) :=
  match nth_error (z_ch z) v with Some row => match nth_error row c with Some s => s | None => None end | None => None end.
Definition place (e : edge) : nat := if e_up e then 2 else 0.
Definition colour_ok (k : kind) (loc : nat) : Prop :=
  match k with Explored => loc = 0 \/ loc = 1 | Cut => loc = 1 \/ loc = 2 | Open => loc = 3 end.
Definition pictured (z : tikz) (E : list edge) : Prop :=
  (forall e, In e E -> nth_error (z_var z) (e_to e) = Some (Z.of_nat (e_var e)) /\
     exists loc, slot_of z (e_from e) (place e) = Some (e_to e, loc) /\ colour_ok (e_kind e) loc) /\
  (forall v c w loc, slot_of z v c = Some (w, loc) -> exists e, In e E /\ e_from e = v /\ e_to e = w /\ place e = c).
(** The number of edges to children of a kind. *)
Definition of_kind (k : kind) (E : list edge) : nat :=
  List.length (filter (fun e => match e_kind e, k with Explored, Explored | Cut, Cut | Open, Open => true | _, _ => false end) E).
(** No integer solution was found during strong branching: those that were found have the objective value of the node. *)
Definition no_strong_branching (d : drawing) : Prop :=
  (forall t, In t (p_stats d) -> t_found t = true -> isVal (ns_obj (t_s t)) (t_iobj t) EPS7 = true) /\
  (forall t, In t (p_pruned d) -> t_found t = true -> Qeq_bool (ns_obj (t_s t)) (t_iobj t) = true).
