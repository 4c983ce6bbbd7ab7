(** What a sequence of calls on an LP solver asks for, read from the calls alone (no model of the calls is used). *)
From Verif Require Import Prelude Model.Settings.
#[local] Open Scope Z_scope.

(** The time limit a call asks for. *)
Definition asks_time (o : sop) : option Q :=
  match o with OLimit t => Some t | OSet _ t => Some t | OStrong _ => None | OCbc _ t _ => Some t end.
(** The limit on hot starts a call asks for. *)
Definition asks_hot (o : sop) : option Z :=
  match o with OStrong h => Some h | OCbc _ _ h => Some h | _ => None end.
(** A call asks for silence. *)
Definition asks_silence (o : sop) : Prop :=
  match o with OSet v _ => v = 0 | OCbc v _ _ => v = 0 | _ => False end.
(** A call prepares for branch and bound. *)
Definition is_cbc (o : sop) : bool := match o with OCbc _ _ _ => true | _ => false end.
(** A call prepares for strong branching. *)
Definition is_strong (o : sop) : Prop := match o with OStrong _ | OCbc _ _ _ => True | _ => False end.
(** How often the solver is prepared for branch and bound. *)
Definition cbc_calls (l : list sop) : nat := List.length (filter is_cbc l).
(** [v] is what the last of the calls asking for something asks for, [d] if none asks. *)
Inductive last_asked {A} (asks : sop -> option A) (d : A) : list sop -> A -> Prop :=
| LAnone l : (forall o, In o l -> asks o = None) -> last_asked asks d l d
| LAlast l o r v : asks o = Some v -> (forall o', In o' r -> asks o' = None) -> last_asked asks d (l ++ o :: r) v.
(** Option [k] (bit [k]) is switched on in a set of options. *)
Definition switched_on (opts : Z) (k : Z) : Prop := Z.testbit opts k = true.
