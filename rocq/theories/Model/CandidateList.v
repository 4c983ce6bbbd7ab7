(** The candidate list for strong branching: OsiChooseStrongCustom::setupList,
    src/branch/OsiChooseStrongCustom.cpp:237-445.  Doubles are rationals.  Not modelled: the fields
    reset when [initialize] is set (lines 239-248), shadow prices (267-290; mode below 2 is assumed). *)
From Verif Require Export Prelude Model.StrongBranch.
#[local] Open Scope Q_scope.

(** What an object reports: its infeasibility ([None]: COIN_DBL_MAX), its priority, column, estimates, and its
    pseudo-costs (total change and number of times, up and down). *)
(** OsiObject and OsiPseudoCosts (external), as read at OsiChooseStrongCustom.cpp:249-385. *)
Record lobj := { lo_inf : option Q; lo_prio : Z; lo_col : nat; lo_up : Q; lo_dn : Q;
                 lo_uptot : Q; lo_upnum : nat; lo_dntot : Q; lo_dnnum : nat }.
(** Conversion of an int to double. *)
Definition Qn (n : nat) : Q := inject_Z (Z.of_nat n).
(** A sum accumulated in a loop. *)
Definition Qsuml {A} (f : A -> Q) (l : list A) : Q := fold_left (fun a x => a + f x) l 0.
(** Lines 296-309: the average multipliers. *)
Definition upMultiplier (objs : list lobj) : Q := (1 + Qsuml lo_uptot objs) / (1 + Qsuml (fun o => Qn (lo_upnum o)) objs).
(** OsiChooseStrongCustom.cpp:296-309: the average for the down direction. *)
Definition dnMultiplier (objs : list lobj) : Q := (1 + Qsuml lo_dntot objs) / (1 + Qsuml (fun o => Qn (lo_dnnum o)) objs).
(** Lines 351-370: the modified estimate ([trust] = numberBeforeTrusted; 1e-30 is line 351). *)
Definition modified (trust : nat) (mult est tot : Q) (num : nat) : Q :=
  let e := if Nat.eqb num 0 then est * mult else est * (tot + (1 # 1000000000000000000000000000000)) / Qn num in
  if Nat.ltb num trust then e * ((Qn trust + 1) / (Qn num + 1)) else e.
(** Line 374. *)
Definition lo_value (method : Z) (trust : nat) (objs : list lobj) (o : lobj) : Q :=
  calculateValue method (lo_col o)
    (modified trust (dnMultiplier objs) (lo_dn o) (lo_dntot o) (lo_dnnum o))
    (modified trust (upMultiplier objs) (lo_up o) (lo_uptot o) (lo_upnum o)) false.

(** The check value: -COIN_DBL_MAX, a number, or COIN_DBL_MAX. *)
(** OsiChooseStrongCustom.cpp:311-418: check. *)
Inductive chk := ChkLow | ChkAt (q : Q) | ChkHigh.
(** OsiChooseStrongCustom.cpp:337-385: the comparison with the check value. *)
Definition above_chk (v : Q) (c : chk) : bool := match c with ChkLow => true | ChkAt q => Qltb q v | ChkHigh => false end.
(** useful_[j] < check with check = COIN_DBL_MAX initially (line 387). *)
Definition below_chk (v : Q) (c : chk) : bool := match c with ChkLow => false | ChkAt q => Qltb v q | ChkHigh => true end.

(** The arrays list_ ([None] is -1) and useful_, and the local variables. *)
(** OsiChooseStrongCustom.cpp:249-328. *)
Record lst := { ls_list : list (option nat); ls_useful : list Q; ls_put : nat; ls_max : nat; ls_prio : Z;
                ls_check : chk; ls_idx : nat; ls_u : nat }.
(** list_[j] = x; [None]: outside the array. *)
Definition aset {A} (l : list A) (j : nat) (x : A) : option (list A) :=
  if Nat.ltb j (length l) then Some (firstn j l ++ x :: skipn (S j) l) else None.
(** assert(list_[putOther - 1] < 0); list_[--putOther] = x;  lines 378-379, 401-402, 408-409.  [None]: assertion or bounds. *)
Definition put_end (L : list (option nat)) (put : nat) (x : nat) : option (list (option nat) * nat) :=
  match put with
  | O => None
  | S p => match nth_error L p with
           | Some None => match aset L p (Some x) with Some L' => Some (L', p) | None => None end
           | _ => None
           end
  end.
(** Lines 329-336: flush, for j = maximumStrong - 1 down to 0 (no assertion on the slot written here). *)
Fixpoint flush (j : nat) (L : list (option nat)) (U : list Q) (put : nat) : option (list (option nat) * list Q * nat) :=
  match j with
  | O => Some (L, U, put)
  | S j' =>
      match nth_error L j' with
      | None => None
      | Some None => flush j' L U put
      | Some (Some x) =>
          match aset L j' None, aset U j' 0, put with
          | Some L1, Some U1, S p => match aset L1 p (Some x) with Some L2 => flush j' L2 U1 p | None => None end
          | _, _, _ => None
          end
      end
  end.
(** Lines 386-398: find the worst, j = [j0], ..., maximumStrong - 1. *)
Fixpoint find_worst (L : list (option nat)) (U : list Q) (todo : list nat) (c : chk) (idx : nat) : option (chk * nat) :=
  match todo with
  | [] => Some (c, idx)
  | j :: r =>
      match nth_error L j, nth_error U j with
      | Some (Some _), Some v => if below_chk v c then find_worst L U r (ChkAt v) j else find_worst L U r c idx
      | Some None, Some _ => Some (ChkAt 0, j)
      | _, _ => None
      end
  end.
(** The loop body for an unsatisfied object [i] of priority [p] whose value is [v], lines 319-411. *)
Definition list_step (s : lst) (i : nat) (p : Z) (v : Q) : option lst :=
  let u := S (ls_u s) in
  match (if (p <? ls_prio s)%Z then
           match flush (ls_max s) (ls_list s) (ls_useful s) (ls_put s) with
           | Some (L, U, put) => Some {| ls_list := L; ls_useful := U; ls_put := put; ls_max := Nat.min (ls_max s) put; ls_prio := p; ls_check := ChkLow; ls_idx := 0; ls_u := u |}
           | None => None
           end
         else Some {| ls_list := ls_list s; ls_useful := ls_useful s; ls_put := ls_put s; ls_max := ls_max s; ls_prio := ls_prio s; ls_check := ls_check s; ls_idx := ls_idx s; ls_u := u |}) with
  | None => None
  | Some s1 =>
      let to_end :=
        match put_end (ls_list s1) (ls_put s1) i with
        | Some (L, put) => Some {| ls_list := L; ls_useful := ls_useful s1; ls_put := put; ls_max := Nat.min (ls_max s1) put; ls_prio := ls_prio s1; ls_check := ls_check s1; ls_idx := ls_idx s1; ls_u := u |}
        | None => None
        end in
      if (p =? ls_prio s1)%Z then
        if above_chk v (ls_check s1) then
          match (match nth_error (ls_list s1) (ls_idx s1) with
                 | None => None
                 | Some None => Some (ls_list s1, ls_put s1)
                 | Some (Some x) => put_end (ls_list s1) (ls_put s1) x
                 end) with
          | None => None
          | Some (L1, put) =>
              match aset L1 (ls_idx s1) (Some i), Nat.ltb (ls_idx s1) put, aset (ls_useful s1) (ls_idx s1) v with
              | Some L2, true, Some U2 =>
                  let m := Nat.min (ls_max s1) put in
                  match find_worst L2 U2 (seq 0 m) ChkHigh (ls_idx s1) with
                  | Some (c, idx) => Some {| ls_list := L2; ls_useful := U2; ls_put := put; ls_max := m; ls_prio := ls_prio s1; ls_check := c; ls_idx := idx; ls_u := u |}
                  | None => None
                  end
              | _, _, _ => None
              end
          end
        else to_end
      else to_end
  end.
(** The loop, lines 315-412.  The flag: still feasible. *)
Fixpoint list_loop (value : lobj -> Q) (s : lst) (i : nat) (objs : list lobj) : option (lst * bool) :=
  match objs with
  | [] => Some (s, true)
  | o :: r =>
      match lo_inf o with
      | None => Some (s, false)
      | Some q => if Qltb 0 q then match list_step s i (lo_prio o) (value o) with Some s' => list_loop value s' (S i) r | None => None end
                  else list_loop value s (S i) r
      end
  end.
(** Lines 419-424: compact. *)
Fixpoint compact (L : list (option nat)) (U : list Q) (todo : list nat) (k : nat) : option (list (option nat) * list Q * nat) :=
  match todo with
  | [] => Some (L, U, k)
  | j :: r =>
      match nth_error L j, nth_error U j with
      | Some (Some x), Some v => match aset L k (Some x), aset U k (- v) with Some L', Some U' => compact L' U' r (S k) | _, _ => None end
      | Some None, Some _ => compact L U r k
      | _, _ => None
      end
  end.
(** Lines 429-430: move others. *)
Fixpoint move_others (L : list (option nat)) (i : nat) (todo : list nat) : option (list (option nat) * nat) :=
  match todo with
  | [] => Some (L, i)
  | p :: r => match nth_error L p with
              | Some x => match aset L i x with Some L' => move_others L' (S i) r | None => None end
              | None => None
              end
  end.
(** The result: numberUnsatisfied_, numberOnList_, list_.  [srt] is CoinSort_2 on the pairs (useful_, list_);
    [None]: an assertion fails or an index is outside the arrays (which have numberObjects entries). *)
(** OsiChooseStrongCustom.cpp:237-445. *)
Definition setupList (srt : list (Q * option nat) -> list (Q * option nat)) (method : Z) (trust : nat) (numberStrong : nat) (objs : list lobj)
  : option (Z * nat * list (option nat)) :=
  let n := length objs in
  let s0 := {| ls_list := repeat None n; ls_useful := repeat 0 n; ls_put := n; ls_max := Nat.min numberStrong n;
               ls_prio := COIN_INT_MAX; ls_check := ChkLow; ls_idx := 0; ls_u := 0 |} in
  match list_loop (lo_value method trust objs) s0 0 objs with
  | None => None
  | Some (s, false) => Some ((-1)%Z, O, ls_list s)
  | Some (s, true) =>
      match compact (ls_list s) (ls_useful s) (seq 0 (Nat.min (ls_max s) (ls_put s))) 0 with
      | None => None
      | Some (L, U, k) =>
          if Nat.eqb k 0 then Some (Z.of_nat (ls_u s), O, L)
          else
            let L1 := map snd (srt (combine (firstn k U) (firstn k L))) ++ skipn k L in
            match move_others L1 k (seq (ls_put s) (n - ls_put s)) with
            | None => None
            | Some (L2, i) => if Nat.eqb i (ls_u s) then Some (Z.of_nat (ls_u s), if Nat.eqb numberStrong 0 then O else k, L2) else None
            end
      end
  end.
