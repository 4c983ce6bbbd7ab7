(** Vocabulary for the preparation of a partial branch-and-bound disjunction. *)
From Verif Require Import Prelude Model.Disjunction Model.EventHandler Model.PartialTree Spec.TreeSpec.
#[local] Open Scope Z_scope.

(** Decimal digit number [k] of a strategy (0 = units), ignoring the sign. *)
Definition digit (k : Z) (s : Z) : Z := (Z.abs s / 10 ^ k) mod 10.

(** How a search of Cbc ends: an event of the handler stopped it (status 5, nothing proven), or it came to an
    end by itself (0: finished, 1: stopped on a limit, 2: difficulties), with optimality proven only if finished. *)
Inductive ended (cfg : hcfg) (ints : nat -> bool) (lo up : nat -> option Q) (root : cnode) (d : disj) (run : search) : Prop :=
| by_event h st a :
    history cfg (lawful cfg ints) (h_init lo up root d) h st -> lawful cfg ints st a -> step cfg st a = EvStop (se_state run) ->
    se_status run = 5 -> se_optimal run = false -> ended cfg ints lo up root d run
| by_itself h :
    history cfg (lawful cfg ints) (h_init lo up root d) h (se_state run) ->
    se_status run = 0 \/ se_status run = 1 \/ se_status run = 2 -> (se_optimal run = true -> se_status run = 0) ->
    ended cfg ints lo up root d run.
