(** CglVPC::getProblemData, src/cut/CglVPC.cpp:694-865, and CglVPC::ProblemData,
    include/CglVPC.hpp:138-163. *)
From Verif Require Export Prelude Model.Tolerance Model.LP Model.BasisStatus.

(** include/CglVPC.hpp:138-149.  [rowOfVar] has [pd_size] entries (function instead of vector). *)
Record probdata := {
  pd_ncols : nat; pd_lp_opt : Q; pd_minAbs : Q; pd_maxAbs : Q; pd_EPS : Q;
  pd_NB : list nat;               (* NBVarIndex *)
  pd_basic : list nat;            (* varBasicInRow *)
  pd_size : nat; pd_rowOfVar : nat -> Z;
  pd_rowOfOrig : nat -> Z;        (* rowOfOrigNBVar; only meaningful when origProbData was given *)
  pd_redcost : list Q;            (* NBReducedCost *)
  pd_warnings : nat               (* increments of numFails[NUMERICAL_ISSUES_WARNING] *) }.

(** include/CglVPC.hpp:152-163 [getVarNBIndex]. *)
Definition getVarNBIndex (pd : probdata) (var : nat) : Z :=
  if Nat.leb (pd_size pd) var then -1
  else if (pd_rowOfVar pd var <=? -1)%Z then (-1 * (1 + pd_rowOfVar pd var))%Z
  else (-1)%Z.

(** Assignment to an element of an array. *)
Definition updz (f : nat -> Z) (j : nat) (v : Z) : nat -> Z := fun k => if Nat.eqb k j then v else f k.

(** Running minimum / maximum of the reference values. *)
(** CglVPC.cpp:694-870: the local variables. *)
Record pdstate := { s_NB : list nat; s_row : nat -> Z; s_orig : nat -> Z; s_min : Q; s_max : Q }.

Definition Qminb (a b : Q) : Q := if Qltb b a then b else a.   (* CoinMin *)
Definition Qmaxb (a b : Q) : Q := if Qltb a b then b else a.   (* CoinMax *)

(** CglVPC.cpp:724-726, 730-733, 764-767, 771-774, 783-785: nonzero values update the minimum, all
    values the maximum. *)
Definition ref_update (mm : Q * Q) (a : Q) : Q * Q :=
  (if Qeq_bool a 0 then fst mm else Qminb (fst mm) (Qabs a), Qmaxb (snd mm) (Qabs a)).

(** CglVPC.cpp:757-775: finite column bounds ([None] = infinite, so the comparison with
    getInfinity() is the match). *)
Definition ref_bound (mm : Q * Q) (o : option Q) : Q * Q :=
  match o with Some q => ref_update mm q | None => mm end.

(** CglVPC.cpp:713-723: smallest and largest absolute value among the matrix elements; an empty
    matrix dereferences the end iterator ([None]). *)
Definition minAbsCoeff (els : list Q) : option Q :=
  match els with [] => None | a :: r => Some (fold_left (fun m e => Qminb m (Qabs e)) r (Qabs a)) end.
(** CglVPC.cpp:713-723: the largest absolute value. *)
Definition maxAbsCoeff (els : list Q) : option Q :=
  match els with [] => None | a :: r => Some (fold_left (fun m e => Qmaxb m (Qabs e)) r (Qabs a)) end.

(** The matrix elements (the order is irrelevant to minimum and maximum). *)
(** CoinPackedMatrix::getElements (external). *)
Definition elements (P : lp) : list Q := flat_map (fun i => map snd (rcoef (rows P i))) (seq 0 (nrows P)).

(** CglVPC.cpp:753-817: one iteration of the loop over variables. [None] = exit(1).
    [B] is the result of getBasics. *)
Definition pd_step (P : lp) (b : basisinfo) (B : list nat) (orig : option probdata)
    (st : pdstate) (var : nat) : option pdstate :=
  let n := ncols P in
  (* 755-803 *)
  let st1 :=
    if Nat.ltb var n then
      let mm := ref_bound (ref_bound (s_min st, s_max st) (clo P var)) (cup P var) in
      {| s_NB := s_NB st; s_row := s_row st; s_orig := s_orig st; s_min := fst mm; s_max := snd mm |}
    else
      let row := (var - n)%nat in
      let mm := ref_update (s_min st, s_max st) (rowRHS (rows P row)) in
      let bv := nth row B O in
      {| s_NB := s_NB st; s_row := updz (s_row st) bv (Z.of_nat row);
         s_orig := match orig with
                   | None => s_orig st
                   | Some o => let k := getVarNBIndex o bv in
                               if (0 <=? k)%Z then updz (s_orig st) (Z.to_nat k) (Z.of_nat row)
                               else s_orig st
                   end;
         s_min := fst mm; s_max := snd mm |} in
  (* 805-823 *)
  if negb (isBasicVar b n var) then
    Some {| s_NB := s_NB st1 ++ [var];
            s_row := updz (s_row st1) var (s_row st1 var - Z.of_nat (length (s_NB st1)))%Z;
            s_orig := s_orig st1; s_min := s_min st1; s_max := s_max st1 |}
  else if Nat.leb n var && negb (Nat.eqb (nth (var - n) B O) var) then None
  else Some st1.

Fixpoint pd_loop (P : lp) (b : basisinfo) (B : list nat) (orig : option probdata)
    (st : pdstate) (vars : list nat) : option pdstate :=
  match vars with
  | [] => Some st
  | v :: r => match pd_step P b B orig st v with
              | None => None | Some st' => pd_loop P b B orig st' r end
  end.

(** CglVPC.cpp:833-844: reduced cost of a nonbasic variable in the complemented nonbasic space. *)
Definition nb_redcost (b : basisinfo) (n var : nat) : Q :=
  if Nat.ltb var n then
    if isNonBasicUBCol b var then -(1) * reducedCost b var else reducedCost b var
  else
    if isNonBasicUBSlack b (var - n) then rowPrice b (var - n) else -(1) * rowPrice b (var - n).

(** CglVPC.cpp:845-859: [None] = exit(1), otherwise the number of warnings. *)
Definition redcost_check (DIFFEPS : Q) (d : Q) : option nat :=
  if lessThanVal d 0 EPS7 then
    if lessThanVal d 0 DIFFEPS then None else Some 1%nat
  else Some O.

(** CglVPC.cpp:845-859: the loop over the nonbasic variables. *)
Fixpoint redcost_loop (DIFFEPS : Q) (b : basisinfo) (n : nat) (NB : list nat) : option (list Q * nat) :=
  match NB with
  | [] => Some ([], O)
  | v :: r =>
      let d := nb_redcost b n v in
      match redcost_check DIFFEPS d with
      | None => None
      | Some w => match redcost_loop DIFFEPS b n r with
                  | None => None
                  | Some (ds, w') => Some (d :: ds, (w + w')%nat)
                  end
      end
  end.

(** CglVPC.cpp:694-865.  [lpopt] = solver->getObjValue(); enabling / disabling the factorization
    (external) is not modelled. *)
Definition getProblemData (EPS DIFFEPS : Q) (P : lp) (b : basisinfo) (lpopt : Q) (B : list nat)
    (orig : option probdata) : option probdata :=
  match minAbsCoeff (elements P), maxAbsCoeff (elements P) with
  | Some mn, Some mx =>
      let mm := ref_update (if Qltb 0 mn then Qminb 1 mn else 1, Qmaxb 1 mx) lpopt in
      match pd_loop P b B orig
              {| s_NB := []; s_row := fun _ => (-1)%Z; s_orig := fun _ => (-1)%Z;
                 s_min := fst mm; s_max := snd mm |}
              (seq 0 (ncols P + nrows P)) with
      | None => None
      | Some st =>
          match redcost_loop DIFFEPS b (ncols P) (s_NB st) with
          | None => None
          | Some (ds, w) =>
              Some {| pd_ncols := ncols P; pd_lp_opt := lpopt; pd_minAbs := mn; pd_maxAbs := mx;
                      pd_EPS := Qminb EPS (s_min st / s_max st);
                      pd_NB := s_NB st; pd_basic := B;
                      pd_size := (ncols P + nrows P)%nat; pd_rowOfVar := s_row st;
                      pd_rowOfOrig := s_orig st; pd_redcost := ds; pd_warnings := w |}
          end
      end
  | _, _ => None
  end.
