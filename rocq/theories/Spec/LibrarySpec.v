(** Validity of cuts and what a session with the library interface should preserve. *)
From Verif Require Import Prelude Model.LP Model.Library Spec.LPSpec.

(** Every integer-feasible point of the problem satisfies every one of the cuts. *)
Definition valid_for (P : lp) (ints : nat -> bool) (cs : list cut) : Prop :=
  forall c x, In c cs -> feasible P x -> integral ints (ncols P) x -> satisfies_cut c x.
(** Every generation of the session, given cuts that are valid for the problem at hand, leaves valid cuts. *)
Fixpoint generations_valid (s : iface) (l : list wop) : Prop :=
  match l with
  | [] => True
  | o :: r =>
      match o with
      | WGenerate (Some pool) => valid_for (w_lp s) (w_int s) (w_cuts s) -> valid_for (w_lp s) (w_int s) pool
      | _ => True
      end /\ generations_valid (fst (wstep s o)) r
  end.
Definition no_load (o : wop) : Prop := match o with WLoad _ _ => False | _ => True end.
(** The [i]-th cut was chosen. *)
Inductive chosen (mask : nat -> bool) : nat -> list cut -> list cut -> Prop :=
| chosen_nil i : chosen mask i [] []
| chosen_yes i c r l : mask i = true -> chosen mask (S i) r l -> chosen mask i (c :: r) (c :: l)
| chosen_no i c r l : mask i = false -> chosen mask (S i) r l -> chosen mask i (c :: r) l.
Definition total (l : list nat) : nat := fold_right Nat.add 0%nat l.
