(** The object that chooses variables in the partial tree, over its whole life: construction, copying, assignment, deletion, settings,
    setupList and chooseVariable (src/branch/OsiChooseStrongCustom.cpp, include/OsiChooseStrongCustom.hpp).  The array of results is a
    block on the heap with its size; a freed block is [None], addresses are never reused.  [None] as a result: undefined behaviour or an
    exception (std::bad_array_new_length).  The base class OsiChooseVariable (external) copies its members by value; of them the number of
    objects its lists have room for, the list, the counts and the chosen object are kept, not goodSolution_ nor the forced object. *)
From Verif Require Export Prelude Model.StrongBranch Model.CandidateList.
#[local] Open Scope Q_scope.

(** OsiPseudoCosts (external): the totals and counts of one object. *)
Record pcost := { p_uptot : Q; p_upnum : nat; p_dntot : Q; p_dnnum : nat }.
(** OsiPseudoCosts::initialize (external): all zero. *)
Definition pcost0 : pcost := {| p_uptot := 0; p_upnum := 0; p_dntot := 0; p_dnnum := 0 |}.
(** OsiChooseStrongCustom.hpp:162-187 without results_ and numResults_, and the members of the base class; [None] for an index: -1.
    Negative numbers for numberStrong_ and numberBeforeTrusted are not modelled (the callers in PartialBBDisjunction.cpp:389-407 test for them). *)
Record kplain := {
  k_method : Z; k_second : option nat * Z; k_shadow : Z; k_trust : nat; k_costs : list pcost;
  k_strong : nat; k_done : nat; k_unsat : Z; k_onlist : nat; k_list : list (option nat); k_room : nat; k_best : option nat * Z }.
(** The object: its plain members, [results_], [numResults_]. *)
Record kobj := { k_plain : kplain; k_results : option nat; k_num : nat }.
(** All blocks (by size) and all objects. *)
Record kworld := { w_blocks : list (option nat); w_objs : list (option kobj) }.
(** The thing at an address, if it is there. *)
Definition kget {A} (l : list (option A)) (i : nat) : option A := match nth_error l i with Some x => x | None => None end.
(** It is written ([Some]) or deleted ([None]). *)
Fixpoint kput {A} (l : list (option A)) (i : nat) (x : option A) : list (option A) :=
  match l, i with [], _ => [] | _ :: r, O => x :: r | c :: r, S j => c :: kput r j x end.

(** OsiChooseStrongCustom.cpp:178-189 with copyOurStuff(NULL), 229-233; [room]: numberObjects of the solver, 0 without one. *)
Definition kplain0 (room : nat) : kplain :=
  {| k_method := 0; k_second := (None, 0%Z); k_shadow := 0; k_trust := 0; k_costs := repeat pcost0 room; k_strong := 0; k_done := 0; k_unsat := 0;
     k_onlist := 0; k_list := []; k_room := room; k_best := (None, (-1)%Z) |}.
(** delete[] results_: nothing for NULL, undefined if freed before. *)
Definition free_results (b : list (option nat)) (a : option nat) : option (list (option nat)) :=
  match a with None => Some b | Some a => match kget b a with None => None | Some _ => Some (kput b a None) end end.

(** What an object reports to setupList: infeasibility, priority, column, estimates (OsiObject, external). *)
Record report := { r_inf : option Q; r_prio : Z; r_col : nat; r_up : Q; r_dn : Q }.
(** OsiChooseStrongCustom.cpp:296-345: the reports with the pseudo-costs of the objects. *)
Definition with_costs (rs : list report) (cs : list pcost) : list lobj :=
  map (fun rc => {| lo_inf := r_inf (fst rc); lo_prio := r_prio (fst rc); lo_col := r_col (fst rc); lo_up := r_up (fst rc); lo_dn := r_dn (fst rc);
                    lo_uptot := p_uptot (snd rc); lo_upnum := p_upnum (snd rc); lo_dntot := p_dntot (snd rc); lo_dnnum := p_dnnum (snd rc) |}) (combine rs cs).
(** What the solver and the objects answer at a node while a variable is chosen (external).  [n_branch i]: strong branching on object [i];
    [n_est i]: its column, estimates (up, down) and preferred way; the time is up after the k-th ([n_tmax]); [n_seven]: the answers read by method 7. *)
Record node := {
  n_branch : nat -> sbres; n_est : nat -> nat * Q * Q * option Z; n_tmax : nat -> bool; n_cutoff : option Q; n_obj : Q;
  n_seven : bool * bool * bool * nat * list nat * (nat -> Q) * (nat -> Q) * (nat -> Q) }.
(** OsiChooseStrongCustom.cpp:684-702: is the object branched on, or its pseudo-cost used? *)
Definition candidate (trust : nat) (cs : list pcost) (nd : node) (i : nat) : entry :=
  let c := nth i cs pcost0 in
  if Nat.ltb (p_upnum c) trust || Nat.ltb (p_dnnum c) trust then
    ToBranch {| sr_obj := {| eo_index := i; eo_col := eo_col (sr_obj (n_branch nd i)); eo_down := eo_down (sr_obj (n_branch nd i));
                             eo_up := eo_up (sr_obj (n_branch nd i)); eo_pref := eo_pref (sr_obj (n_branch nd i)) |};
                sr_down_inf := sr_down_inf (n_branch nd i); sr_up_inf := sr_up_inf (n_branch nd i) |}
  else let '(col, up, dn, pref) := n_est nd i in
    Trusted {| eo_index := i; eo_col := col; eo_down := p_dntot c * dn / Qn (p_dnnum c); eo_up := p_uptot c * up / Qn (p_upnum c); eo_pref := pref |}.
(** The first numbers of list_: [None] if one is -1. *)
Fixpoint all_some {A} (l : list (option A)) : option (list A) :=
  match l with [] => Some [] | None :: _ => None | Some x :: r => match all_some r with Some r' => Some (x :: r') | None => None end end.
(** OsiChooseStrongCustom.cpp:684-692: the objects to branch on. *)
Definition to_branch (l : list entry) : list sbres := flat_map (fun e => match e with Trusted _ => [] | ToBranch r => [r] end) l.

(** OsiChooseStrongCustom.cpp:237-445 [setupList]: the resets (239-248), the pseudo-costs made longer (252-255: all are initialised again), and the list.
    Undefined if the lists have no room for the objects. *)
Definition k_setup (srt : list (Q * option nat) -> list (Q * option nat)) (init : bool) (rs : list report) (p : kplain) : option kplain :=
  let n := length rs in
  if Nat.ltb (k_room p) n then None
  else
    let costs := if Nat.ltb (length (k_costs p)) n then repeat pcost0 n else k_costs p in
    match setupList srt (k_method p) (k_trust p) (k_strong p) (with_costs rs (firstn n costs)) with
    | None => None
    | Some (u, onlist, L) =>
        Some {| k_method := k_method p; k_second := k_second p; k_shadow := k_shadow p; k_trust := k_trust p; k_costs := costs; k_strong := k_strong p;
                k_done := if init then O else k_done p; k_unsat := u; k_onlist := onlist; k_list := L; k_room := k_room p;
                k_best := if init then (None, snd (k_best p)) else k_best p |}
    end.
(** The answer of a call: the code, whichObject, whichWay. *)
Definition answer := (Z * option nat * Z)%type.
(** OsiChooseStrongCustom.cpp:580-797 [chooseVariable] on the plain members, for a number of results of [left]: the new members, how many objects
    were branched on, how many results were wanted, the answer. *)
Definition k_decide (left : nat) (nd : node) (p : kplain) : option (kplain * nat * nat * answer) :=
  let trust := if Nat.eqb (k_trust p) 0 then 5%nat else k_trust p in
  match all_some (firstn (Z.to_nat (k_unsat p)) (k_list p)) with
  | None => None
  | Some ids =>
      if forallb (fun i => Nat.ltb i (length (k_costs p))) (firstn left ids) then
        let entries := map (candidate trust (k_costs p) nd) ids in
        let todo := to_branch (firstn left entries) in
        let done := match todo with [] => [] | _ => snd (fst (doStrongBranching (n_tmax nd) 0 todo)) end in
        let '(code, best, way, second) := chooseVariable (k_method p) (n_tmax nd) (n_cutoff nd) (n_obj nd) entries left (k_onlist p) (k_second p) in
        Some ({| k_method := k_method p; k_second := second; k_shadow := k_shadow p; k_trust := trust; k_costs := k_costs p; k_strong := k_strong p;
                 k_done := k_done p + length done; k_unsat := k_unsat p; k_onlist := k_onlist p; k_list := k_list p; k_room := k_room p; k_best := (best, way) |},
              length done, length todo, (code, best, way))
      else None
  end.
(** OsiChooseStrongCustom.cpp:582-630: method 7; the results are left alone. *)
Definition k_decide7 (nd : node) (p : kplain) : option (kplain * answer) :=
  let '(optimal, infeasible, feasible, depth, cols, lower, upper, sol) := n_seven nd in
  match chooseVariable7 optimal infeasible feasible depth cols lower upper sol with
  | None => None
  | Some r => Some ({| k_method := k_method p; k_second := k_second p; k_shadow := k_shadow p; k_trust := k_trust p; k_costs := k_costs p; k_strong := k_strong p;
                       k_done := k_done p; k_unsat := k_unsat p; k_onlist := k_onlist p; k_list := k_list p; k_room := k_room p; k_best := (sv_index r, sv_way r) |},
                    (sv_code r, sv_index r, sv_way r))
  end.
(** OsiChooseStrongCustom.cpp:580-797 with the results: resetResults (448-452) makes room for min(numberStrong_ - numberStrongDone_,
    numberUnsatisfied_) of them (667-670; an exception if negative), results_[numberToDo++] (691) is within them. *)
Definition k_choose (nd : node) (b : list (option nat)) (o : kobj) : option (list (option nat) * kobj * answer) :=
  let p := k_plain o in
  if (k_method p =? 7)%Z then
    match k_decide7 nd p with None => None | Some (p', a) => Some (b, {| k_plain := p'; k_results := k_results o; k_num := k_num o |}, a) end
  else if (k_unsat p =? 0)%Z then Some (b, o, (1%Z, fst (k_best p), snd (k_best p)))
  else
    let left := Z.min (Z.of_nat (k_strong p) - Z.of_nat (k_done p)) (k_unsat p) in
    if (left <? 0)%Z then None
    else match free_results b (k_results o) with
         | None => None
         | Some b1 =>
             match k_decide (Z.to_nat left) nd p with
             | None => None
             | Some (p', done, todo, a) =>
                 if Nat.leb todo (Z.to_nat left) then Some (b1 ++ [Some (Z.to_nat left)], {| k_plain := p'; k_results := Some (length b1); k_num := done |}, a) else None
             end
         end.

(** Calls on such an object. *)
Inductive kcall :=
| CSolver (n : nat)                                (* setSolver (external): lists for a solver with n objects *)
| CMethod (m : Z)                                  (* setMethod, OsiChooseStrongCustom.hpp:138-140 *)
| CStrong (k : nat)                                (* setNumberStrong (external) *)
| CTrust (k : nat)                                 (* setNumberBeforeTrusted, OsiChooseStrongCustom.hpp:128-129 *)
| CShadow (m : Z)                                  (* setShadowPriceMode, OsiChooseStrongCustom.hpp:112-113 *)
| CSetup (init : bool) (rs : list report)
| CChoose (nd : node).
(** What a program does with such objects. *)
Inductive kcmd :=
| KNew                                             (* default constructor, OsiChooseStrongCustom.cpp:178-182 *)
| KNewFor (n : nat)                                (* for a solver with n objects, 184-189 *)
| KCopy (i : nat)                                  (* copy constructor, clone: 191-195, 217-220; CbcBranchDecision::setChooseMethod, CbcModel::setBranchingMethod *)
| KAssign (i j : nat)                              (* object i = j: 197-210 *)
| KDelete (i : nat)                                (* 212-214 *)
| KCall (i : nat) (c : kcall).
(** Writing the plain members. *)
Definition with_plain (o : kobj) (p : kplain) : kobj := {| k_plain := p; k_results := k_results o; k_num := k_num o |}.
(** Setting the list room, method, numbers and mode. *)
Definition set_room (n : nat) (p : kplain) : kplain :=
  {| k_method := k_method p; k_second := k_second p; k_shadow := k_shadow p; k_trust := k_trust p; k_costs := k_costs p; k_strong := k_strong p;
     k_done := k_done p; k_unsat := 0; k_onlist := 0; k_list := []; k_room := n; k_best := k_best p |}.
(** OsiChooseStrongCustom.hpp:138-140. *)
Definition set_method (m : Z) (p : kplain) : kplain :=
  {| k_method := m; k_second := k_second p; k_shadow := k_shadow p; k_trust := k_trust p; k_costs := k_costs p; k_strong := k_strong p;
     k_done := k_done p; k_unsat := k_unsat p; k_onlist := k_onlist p; k_list := k_list p; k_room := k_room p; k_best := k_best p |}.
(** OsiChooseVariable::setNumberStrong (external). *)
Definition set_strong (k : nat) (p : kplain) : kplain :=
  {| k_method := k_method p; k_second := k_second p; k_shadow := k_shadow p; k_trust := k_trust p; k_costs := k_costs p; k_strong := k;
     k_done := k_done p; k_unsat := k_unsat p; k_onlist := k_onlist p; k_list := k_list p; k_room := k_room p; k_best := k_best p |}.
(** OsiChooseStrongCustom.hpp:128-129. *)
Definition set_trust (k : nat) (p : kplain) : kplain :=
  {| k_method := k_method p; k_second := k_second p; k_shadow := k_shadow p; k_trust := k; k_costs := k_costs p; k_strong := k_strong p;
     k_done := k_done p; k_unsat := k_unsat p; k_onlist := k_onlist p; k_list := k_list p; k_room := k_room p; k_best := k_best p |}.
(** OsiChooseStrongCustom.hpp:112-113. *)
Definition set_shadow (m : Z) (p : kplain) : kplain :=
  {| k_method := k_method p; k_second := k_second p; k_shadow := m; k_trust := k_trust p; k_costs := k_costs p; k_strong := k_strong p;
     k_done := k_done p; k_unsat := k_unsat p; k_onlist := k_onlist p; k_list := k_list p; k_room := k_room p; k_best := k_best p |}.
(** OsiChooseStrongCustom.cpp:191-195 and 197-210 with copyOurStuff(&rhs), 225-228: the plain members that are copied. *)
Definition k_copied (s : kplain) : kplain :=
  {| k_method := k_method s; k_second := k_second s; k_shadow := k_shadow s; k_trust := k_trust s; k_costs := k_costs s; k_strong := k_strong s;
     k_done := k_done s; k_unsat := k_unsat s; k_onlist := k_onlist s; k_list := k_list s; k_room := k_room s; k_best := k_best s |}.
(** A new object. *)
Definition k_add (w : kworld) (o : kobj) : kworld := {| w_blocks := w_blocks w; w_objs := w_objs w ++ [Some o] |}.
(** One call: the blocks, the object and the answers. *)
Definition k_call (srt : list (Q * option nat) -> list (Q * option nat)) (b : list (option nat)) (o : kobj) (c : kcall) : option (list (option nat) * kobj * list answer) :=
  match c with
  | CSolver n => Some (b, with_plain o (set_room n (k_plain o)), [])
  | CMethod m => Some (b, with_plain o (set_method m (k_plain o)), [])
  | CStrong k => Some (b, with_plain o (set_strong k (k_plain o)), [])
  | CTrust k => Some (b, with_plain o (set_trust k (k_plain o)), [])
  | CShadow m => Some (b, with_plain o (set_shadow m (k_plain o)), [])
  | CSetup init rs => match k_setup srt init rs (k_plain o) with None => None | Some p => Some (b, with_plain o p, []) end
  | CChoose nd => match k_choose nd b o with None => None | Some (b', o', a) => Some (b', o', [a]) end
  end.
(** One command: the new world and the answers given. *)
Definition k_step (srt : list (Q * option nat) -> list (Q * option nat)) (w : kworld) (c : kcmd) : option (kworld * list answer) :=
  match c with
  | KNew => Some (k_add w {| k_plain := kplain0 0; k_results := None; k_num := 0 |}, [])
  | KNewFor n => Some (k_add w {| k_plain := kplain0 n; k_results := None; k_num := 0 |}, [])
  | KCopy i => match kget (w_objs w) i with
               | None => None
               | Some o => Some (k_add w {| k_plain := k_copied (k_plain o); k_results := None; k_num := 0 |}, [])
               end
  | KAssign i j =>
      match kget (w_objs w) i, kget (w_objs w) j with
      | Some o, Some s =>
          if Nat.eqb i j then Some (w, [])
          else match free_results (w_blocks w) (k_results o) with
               | None => None
               | Some b => Some ({| w_blocks := b; w_objs := kput (w_objs w) i (Some {| k_plain := k_copied (k_plain s); k_results := None; k_num := 0 |}) |}, [])
               end
      | _, _ => None
      end
  | KDelete i => match kget (w_objs w) i with
                 | None => None
                 | Some o => match free_results (w_blocks w) (k_results o) with
                             | None => None
                             | Some b => Some ({| w_blocks := b; w_objs := kput (w_objs w) i None |}, [])
                             end
                 end
  | KCall i c =>
      match kget (w_objs w) i with
      | None => None
      | Some o => match k_call srt (w_blocks w) o c with
                  | None => None
                  | Some (b, o', a) => Some ({| w_blocks := b; w_objs := kput (w_objs w) i (Some o') |}, a)
                  end
      end
  end.
(** A program, and all its answers in order. *)
Fixpoint k_run (srt : list (Q * option nat) -> list (Q * option nat)) (w : kworld) (cs : list kcmd) : option (kworld * list answer) :=
  match cs with
  | [] => Some (w, [])
  | c :: r => match k_step srt w c with
              | None => None
              | Some (w1, a) => match k_run srt w1 r with None => None | Some (w2, a') => Some (w2, a ++ a') end
              end
  end.
(** Before anything. *)
Definition kworld0 : kworld := {| w_blocks := []; w_objs := [] |}.
