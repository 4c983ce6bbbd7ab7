(** Timers: include/common/TimeStats.hpp.
    [clock()] is an argument: the processor-clock reading (a natural number of ticks) at the moment
    of the call.  [clock_t] arithmetic is exact (no overflow).  None = a failed assert. *)
From Verif Require Import Prelude.
From Coq Require Export String.
#[global] Open Scope string_scope.
#[global] Open Scope list_scope.

(** time.h (POSIX). *)
(** time.h (external): 10^6. *)
Definition CLOCKS_PER_SEC : Z := 1000000.

(** TimeStats.hpp:109-113: the three vectors and the map.  The map is a list in the order of its
    keys (struct ltstr, 26-30, is strcmp).  Ids in the map are never UNINITIALIZED_STAT: the only
    place that creates an entry (register_name) sets it. *)
Record timer := { t_start : nat; t_value : Z; t_running : bool }.
(** TimeStats.hpp:109-113; [ts_names]: the map name_to_id, [ts_timers]: the vectors. *)
Record tstats := { ts_names : list (string * nat); ts_timers : list timer }.

(** TimeStats.hpp:46-50. *)
Definition ts_new : tstats := {| ts_names := []; ts_timers := [] |}.

(** std::map operator[] followed by assignment. *)
Fixpoint map_set (m : list (string * nat)) (k : string) (v : nat) : list (string * nat) :=
  match m with
  | [] => [(k, v)]
  | (k', v') :: r =>
      match String.compare k k' with
      | Eq => (k', v) :: r
      | Lt => (k, v) :: m
      | Gt => (k', v') :: map_set r k v
      end
  end.
(** std::map::find (external), used at TimeStats.hpp:234-245. *)
Fixpoint map_find (m : list (string * nat)) (k : string) : option nat :=
  match m with
  | [] => None
  | (k', v) :: r => if String.eqb k k' then Some v else map_find r k
  end.

(** TimeStats.hpp:118-125 register_name. *)
Definition register_name (s : tstats) (now : nat) (name : string) (initial : Z) : tstats :=
  {| ts_names := map_set (ts_names s) name (Datatypes.length (ts_timers s));
     ts_timers := ts_timers s ++ [{| t_start := now; t_value := initial; t_running := false |}] |}.

(** TimeStats.hpp:234-245 get_id. *)
Definition get_id (s : tstats) (name : string) : Z :=
  match map_find (ts_names s) name with Some i => Z.of_nat i | None => (-1)%Z end.

(** The timer an id denotes: [id >= 0 && id < value.size()]. *)
(** TimeStats.hpp:131-225. *)
Definition valid_id (s : tstats) (id : Z) : bool :=
  (0 <=? id)%Z && (id <? Z.of_nat (Datatypes.length (ts_timers s)))%Z.
(** TimeStats.hpp:118-125: what register_name pushes for a new name. *)
Definition timer0 : timer := {| t_start := 0; t_value := 0; t_running := false |}.
(** TimeStats.hpp:131-225: the entries of the vectors at an id. *)
Definition timer_at (s : tstats) (id : Z) : timer := nth (Z.to_nat id) (ts_timers s) timer0.
(** vector::operator[] assignment inside the vector. *)
Fixpoint upd {A} (l : list A) (i : nat) (f : A -> A) : list A :=
  match l, i with
  | [], _ => []
  | x :: r, O => f x :: r
  | x :: r, S i' => x :: upd r i' f
  end.
(** TimeStats.hpp:131-185: the entries at an id are assigned. *)
Definition set_timer (s : tstats) (id : Z) (f : timer -> timer) : tstats :=
  {| ts_names := ts_names s; ts_timers := upd (ts_timers s) (Z.to_nat id) f |}.

(** TimeStats.hpp:131-138 start_timer(int): the assert fires if the timer is running. *)
Definition start_id (s : tstats) (now : nat) (id : Z) : option tstats :=
  if valid_id s id then
    if t_running (timer_at s id) then None
    else Some (set_timer s id (fun t => {| t_start := now; t_value := t_value t; t_running := true |}))
  else Some s.

(** TimeStats.hpp:144-151 end_timer(int): the assert fires if the timer is not running. *)
Definition stop (now : nat) (t : timer) : timer :=
  {| t_start := t_start t; t_value := t_value t + (Z.of_nat now - Z.of_nat (t_start t)); t_running := false |}.
(** TimeStats.hpp:144-151. *)
Definition end_id (s : tstats) (now : nat) (id : Z) : option tstats :=
  if valid_id s id then
    if t_running (timer_at s id) then Some (set_timer s id (stop now)) else None
  else Some s.

(** TimeStats.hpp:153-159 end_all.  [clock()] is read once per running timer in the code; here all
    of them see the same reading. *)
Definition end_all (s : tstats) (now : nat) : tstats :=
  {| ts_names := ts_names s;
     ts_timers := map (fun t => if t_running t then stop now t else t) (ts_timers s) |}.

(** TimeStats.hpp:165-169 add_value(int), 175-179 add_time(int). *)
Definition add_value_id (s : tstats) (id : Z) (v : Z) : tstats :=
  if valid_id s id
  then set_timer s id (fun t => {| t_start := t_start t; t_value := t_value t + v; t_running := t_running t |})
  else s.
(** TimeStats.hpp:175-179. *)
Definition add_time_id (s : tstats) (id : Z) (v : Z) : tstats := add_value_id s id (v * CLOCKS_PER_SEC).

(** The overloads by name: 127-129, 140-142, 161-163, 171-173, 181-183, 193-195, 205-207, 217-219, each [f(get_id(name))]. *)
Inductive key := ByName (n : string) | ById (id : Z).
(** TimeStats.hpp:234-245 [get_id] for the overloads that take a name. *)
Definition resolve (s : tstats) (k : key) : Z := match k with ByName n => get_id s n | ById i => i end.
(** TimeStats.hpp:127-138. *)
Definition start_timer (s : tstats) (now : nat) (k : key) : option tstats := start_id s now (resolve s k).
(** TimeStats.hpp:140-151. *)
Definition end_timer (s : tstats) (now : nat) (k : key) : option tstats := end_id s now (resolve s k).
(** TimeStats.hpp:161-169. *)
Definition add_value (s : tstats) (k : key) (v : Z) : tstats := add_value_id s (resolve s k) v.
(** TimeStats.hpp:171-179. *)
Definition add_time (s : tstats) (k : key) (v : Z) : tstats := add_time_id s (resolve s k) v.

(** TimeStats.hpp:181-191 get_value. *)
Definition get_value (s : tstats) (k : key) : Z :=
  let id := resolve s k in if valid_id s id then t_value (timer_at s id) else (-1)%Z.
(** TimeStats.hpp:193-203 get_time; the division by CLOCKS_PER_SEC is exact here. *)
Definition seconds (ticks : Z) : Q := inject_Z ticks / inject_Z CLOCKS_PER_SEC.
(** TimeStats.hpp:193-203. *)
Definition get_time (s : tstats) (k : key) : Q :=
  let id := resolve s k in if valid_id s id then seconds (t_value (timer_at s id)) else inject_Z (-1).
(** TimeStats.hpp:205-215 get_current_time. *)
Definition get_current_time (s : tstats) (now : nat) (k : key) : Q :=
  let id := resolve s k in
  if valid_id s id then seconds (Z.of_nat now - Z.of_nat (t_start (timer_at s id))) else inject_Z (-1).
(** TimeStats.hpp:217-232 get_total_time. *)
Definition get_total_time (s : tstats) (now : nat) (k : key) : Q :=
  let id := resolve s k in
  if valid_id s id then
    if t_running (timer_at s id)
    then seconds (t_value (timer_at s id) + Z.of_nat now - Z.of_nat (t_start (timer_at s id)))
    else seconds (t_value (timer_at s id))
  else inject_Z (-1).
(** TimeStats.hpp:104-106 reachedTimeLimit. *)
Definition reachedTimeLimit (s : tstats) (now : nat) (name : string) (max_time : Q) : bool :=
  Qltb max_time (get_total_time s now (ByName name)).

(** TimeStats.hpp:247-257 get_name.  The body of the while loop does not advance the iterator, so
    the loop state is the iterator itself (here: the rest of the map) and one pass either finds the
    id in the first entry or leaves the state as it was.  [fuel] passes; None = still looping. *)
Fixpoint get_name_loop (fuel : nat) (it : list (string * nat)) (id : nat) : option string :=
  match fuel with
  | O => None
  | S fuel' =>
      match it with
      | [] => Some ""
      | (n, i) :: _ => if Nat.eqb i id then Some n else get_name_loop fuel' it id
      end
  end.
(** TimeStats.hpp:247-257 started at the beginning of the map. *)
Definition get_name (s : tstats) (fuel : nat) (id : nat) : option string := get_name_loop fuel (ts_names s) id.

(** TimeStats.hpp:259-290 print: what is written for each of the ids 0 .. #names-1.
    amountToPrint 1: names, 2: times, otherwise both.  None = still looping after [fuel] passes of
    some get_name.  Times are given before the %.2f rounding. *)
Definition print_item (s : tstats) (fuel : nat) (amount : Z) (id : nat) : option (option string * option Q) :=
  let t := get_time s (ById (Z.of_nat id)) in
  if Z.eqb amount 2 then Some (None, Some t)
  else match get_name s fuel id with
       | None => None
       | Some n => if Z.eqb amount 1 then Some (Some n, None) else Some (Some n, Some t)
       end.
(** A loop that stops at the first failure. *)
Fixpoint collect {A B} (f : A -> option B) (l : list A) : option (list B) :=
  match l with
  | [] => Some []
  | x :: r => match f x with None => None
              | Some y => match collect f r with None => None | Some ys => Some (y :: ys) end end
  end.
(** TimeStats.hpp:259-290: all ids. *)
Definition print (s : tstats) (fuel : nat) (amount : Z) : option (list (option string * option Q)) :=
  collect (print_item s fuel amount) (seq 0 (Datatypes.length (ts_names s))).

(** ** A program using timers: calls in order, each with the clock reading it sees. *)
(** TimeStats.hpp:117-225: the public calls. *)
Inductive tcall :=
| Register (name : string) (initial : Z)
| Start (k : key)
| End (k : key)
| EndAll
| AddValue (k : key) (v : Z)
| AddTime (k : key) (v : Z).
(** One call of the public interface, TimeStats.hpp:117-225. *)
Definition tstep (s : tstats) (e : nat * tcall) : option tstats :=
  let '(now, c) := e in
  match c with
  | Register n v => Some (register_name s now n v)
  | Start k => start_timer s now k
  | End k => end_timer s now k
  | EndAll => Some (end_all s now)
  | AddValue k v => Some (add_value s k v)
  | AddTime k v => Some (add_time s k v)
  end.
(** A sequence of calls. *)
Fixpoint trun (s : tstats) (h : list (nat * tcall)) : option tstats :=
  match h with
  | [] => Some s
  | e :: r => match tstep s e with None => None | Some s' => trun s' r end
  end.
