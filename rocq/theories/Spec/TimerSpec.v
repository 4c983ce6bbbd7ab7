(** What a timer should measure, stated on the history of calls alone. *)
From Verif Require Import Prelude Model.TimeStats.

(** The id of a name = how many registrations came before it. *)
Definition is_register (e : nat * tcall) : bool := match snd e with Register _ _ => true | _ => false end.
Definition registrations (h : list (nat * tcall)) : nat := Datatypes.length (filter is_register h).
Definition registers (n : string) (e : nat * tcall) : Prop := exists v, snd e = Register n v.

(** Is a call addressed to the timer registered as [n] with id [id]?  *)
Definition addresses (n : string) (id : nat) (k : key) : bool :=
  match k with ByName m => String.eqb m n | ById i => Z.eqb i (Z.of_nat id) end.

(** Being on or off after a history (the last start or end decides). *)
Definition switch (n : string) (id : nat) (on : bool) (e : nat * tcall) : bool :=
  match snd e with
  | Start k => if addresses n id k then true else on
  | End k => if addresses n id k then false else on
  | EndAll => false
  | _ => on
  end.
Definition is_on (n : string) (id : nat) (h : list (nat * tcall)) : bool := fold_left (switch n id) h false.
(** Being on during the clock tick [u]: after all calls made up to that reading. *)
Definition on_at (n : string) (id : nat) (h : list (nat * tcall)) (u : nat) : bool :=
  is_on n id (filter (fun e => Nat.leb (fst e) u) h).
(** Number of ticks in [t0, now) during which the timer was on. *)
Definition ticks_on (n : string) (id : nat) (h : list (nat * tcall)) (t0 now : nat) : nat :=
  Datatypes.length (filter (on_at n id h) (seq t0 (now - t0))).
(** What was added explicitly, in ticks. *)
Fixpoint added (n : string) (id : nat) (h : list (nat * tcall)) : Z :=
  match h with
  | [] => 0
  | (_, AddValue k v) :: r => (if addresses n id k then v else 0) + added n id r
  | (_, AddTime k v) :: r => (if addresses n id k then v * CLOCKS_PER_SEC else 0) + added n id r
  | _ :: r => added n id r
  end.

(** The clock never goes back. *)
Fixpoint clock_from (t : nat) (h : list (nat * tcall)) : Prop :=
  match h with [] => True | e :: r => (t <= fst e)%nat /\ clock_from (fst e) r end.
Definition last_reading (t : nat) (h : list (nat * tcall)) : nat := last (map fst h) t.

(** The names registered, in order. *)
Fixpoint names_of (h : list (nat * tcall)) : list string :=
  match h with
  | [] => []
  | (_, Register n _) :: r => n :: names_of r
  | _ :: r => names_of r
  end.

(** A call that breaks the rules: starting a timer that is on, or ending one that is off.
    The timer is the one registered by the call after [h1]; [h2] is what happened since. *)
Definition breaks_rules (h : list (nat * tcall)) (e : nat * tcall) : Prop :=
  exists h1 t0 n v h2 k,
    h = h1 ++ (t0, Register n v) :: h2 /\ addresses n (registrations h1) k = true /\
    ((snd e = Start k /\ is_on n (registrations h1) h2 = true) \/
     (snd e = End k /\ is_on n (registrations h1) h2 = false)).
