(** How a reader understands the table of node statistics: lines, words, columns. *)
From Coq Require Import String.
From Verif Require Import Prelude Model.Tolerance Model.TextUtil Model.Names Spec.TextSpec Spec.NameSpec Model.Report Spec.ReportSpec Model.NodeTable.
#[local] Open Scope Q_scope.
#[local] Open Scope list_scope.

(** The words of a line: what stands between blanks (and the end of the line). *)
Definition is_space (c : ascii) : bool := Ascii.eqb c " "%char || Ascii.eqb c (ascii_of_nat 10).
Definition flush (cur : text) : list text := match cur with [] => [] | _ => [cur] end.
Fixpoint words_from (cur l : text) : list text :=
  match l with
  | [] => flush cur
  | c :: r => if is_space c then flush cur ++ words_from [] r else words_from (cur ++ [c]) r
  end.
Definition words (l : text) : list text := words_from [] l.

Definition titles : list text := map txt ["id"; "parent"; "depth"; "variable"; "branch"; "way"; "obj"; "value"; "lb"; "ub"; "orig_id"; "number"; "int_obj"; "int_found"; "status"]%string.
(** A double shown with [p] decimals. *)
Definition shown_with (p : nat) (v : Q) (t : text) : Prop :=
  (known v -> exists w, number t w /\ Qabs (w - v) <= (1 # 2) * power (- Z.of_nat p)) /\ (DBL_MAX <= v -> t = txt "'inf'") /\ (v <= - DBL_MAX -> t = txt "'-inf'").
(** What the word under each title says about a node. *)
Definition says (r : nrow) : list (text -> Prop) :=
  [(fun t => signed t (nr_id r)); (fun t => signed t (nr_parent r)); (fun t => signed t (nr_depth r)); (fun t => signed t (nr_var r)); (fun t => signed t (nr_branch r));
   (fun t => t = txt "down" /\ (nr_way r <= 0)%Z \/ t = txt "up" /\ (0 < nr_way r)%Z);
   shown_with 3 (nr_obj r); shown_with 3 (nr_value r); shown_with 0 (nr_lb r); shown_with 0 (nr_ub r);
   (fun t => signed t (nr_orig r)); (fun t => signed t (nr_number r)); shown_with 3 (nr_intobj r);
   (fun t => signed t (if nr_found r then 1 else 0)%Z); (fun t => t = nr_status r)].
Definition reads_as (r : nrow) (line : text) : Prop := Forall2 (fun P t => P t) (says r) (words line).
(** A line made of cells of the given widths, each holding one word. *)
Definition in_columns (widths : list nat) (line : text) : Prop :=
  exists cells, line = concat cells ++ NL /\ map (@List.length ascii) cells = widths /\ Forall (fun c => exists w, words c = [w]) cells.

(** Nodes as the search records them: integers of at most eight digits, doubles that are numbers (the C library prints
    them without blanks, correct to half a unit) or infinite, one of the five statuses. *)
Definition doubles_of (r : nrow) : list (nat * Q) := [(3%nat, nr_obj r); (3%nat, nr_value r); (0%nat, nr_lb r); (0%nat, nr_ub r); (3%nat, nr_intobj r)].
Definition ints_in (r : nrow) : list Z := [nr_id r; nr_parent r; nr_depth r; nr_var r; nr_branch r; nr_orig r; nr_number r].
Definition printable (F : clib) (r : nrow) : Prop :=
  (forall z, In z (ints_in r) -> (- 10 ^ 8 < z < 10 ^ 8)%Z) /\
  (forall p v, In (p, v) (doubles_of r) -> (known v \/ DBL_MAX <= v \/ v <= - DBL_MAX) /\
     (known v -> prints_f F p v /\ (List.length (pf_f F p v) <= 400)%nat /\ ~ In " "%char (pf_f F p v))) /\
  In (nr_status r) (map txt ["normal"; "infeas"; "bound"; "integ"; "unknown"]%string).
