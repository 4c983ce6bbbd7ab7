(** Rounds of cuts in the main program: src/main.cpp:459-834 (the loop), 205-226 (its start) and 871-880 (what is analysed). *)
From Verif Require Export Model.LP Model.SolverHelper.
#[local] Open Scope Q_scope.

(** A solver object: its problem and what it reports now. *)
(** OsiSolverInterface (external). *)
Record msolver := { m_lp : lp; m_now : lpans }.
(** isProvenOptimal() and getObjValue(); [None]: not optimal, the value is not specified. *)
(** OsiSolverInterface (external). *)
Definition m_obj (s : msolver) : option Q := match m_now s with LOptimal v => Some v | _ => None end.
(** applyCutsCustom(solver, cuts, logfile): all cuts of the pool, default comparison value; [None]: the program ends.
    After it the solver reports the value returned, or that it is not optimal. *)
(** SolverHelper.cpp:618-622, called at main.cpp:513-697. *)
Definition m_apply (ask : solver_oracle) (s : msolver) (cs : list cut) : option msolver :=
  match applyCutsCustom ask (Some (m_lp s)) (m_now s) cs 0 None (- DBL_MAX) with
  | Applied P (Some v) => Some {| m_lp := P; m_now := LOptimal v |}
  | Applied P None => Some {| m_lp := P; m_now := LLimit |}
  | _ => None
  end.

(** What the world answers in one round: the GMICs generated (483-497), whether VPCs are generated at all (532-537), the
    cuts and the number reported by the generator (559; its pool is empty before), best and worst objective of each
    disjunction used (571-600), time limit (816), optimal solution found by the generator (828). *)
Record roundenv := { re_gmics : list cut; re_should : bool; re_vpcs : list cut; re_num : nat; re_disjs : list (Q * Q);
  re_timeup : bool; re_found : bool }.
(** boundInfoVec[round]: objective before the round, after it for the three kinds of solver, numbers of cuts. *)
(** main.cpp:459-700: one entry of boundInfoVec. *)
Record roundinfo := { ri_lp : option Q; ri_gmic : option Q; ri_vpc : option Q; ri_all : option Q; ri_ngmic : nat; ri_nvpc : nat }.
(** The four solvers (only [s_solver] exists when GOMORY = 0); all cuts so far; the numbers and bounds of boundInfo;
    boundInfoVec.  [s_gen] is not in the code: it records each call of a cut generator, with the problem it was given. *)
(** main.cpp:357-470. *)
Record mainst := { s_solver : msolver; s_gm : msolver; s_vp : msolver; s_all : msolver; s_gmics : list cut; s_vpcs : list cut;
  s_ngmic : nat; s_nvpc : nat; s_bgmic : option Q; s_bvpc : option Q; s_ball : option Q; s_best : Q; s_worst : Q;
  s_rounds : list roundinfo; s_gen : list (lp * list cut) }.

(** "if (best < disj->best_obj) best = disj->best_obj", lines 575-590. *)
Definition max_if (a b : Q) : Q := if Qltb a b then b else a.
(** vector::empty(). *)
Definition is_nil {A} (l : list A) : bool := match l with [] => true | _ => false end.

(** Lines 474-527.  [ask i]: the solver's answers in the [i]-th application of cuts of this round. *)
Definition gomory_part (g : Z) (ask : nat -> solver_oracle) (e : roundenv) (s : mainst) : option mainst :=
  if (g =? -1)%Z || (g =? 1)%Z then
    match m_apply (ask 0%nat) (s_gm s) (re_gmics e) with
    | None => None
    | Some gm =>
        match (if (0 <? g)%Z then m_apply (ask 1%nat) (s_solver s) (re_gmics e) else Some (s_solver s)) with
        | None => None
        | Some so =>
            match m_apply (ask 2%nat) (s_all s) (re_gmics e) with
            | None => None
            | Some al =>
                Some {| s_solver := so; s_gm := gm; s_vp := s_vp s; s_all := al; s_gmics := s_gmics s ++ re_gmics e; s_vpcs := s_vpcs s;
                        s_ngmic := s_ngmic s + length (re_gmics e); s_nvpc := s_nvpc s; s_bgmic := m_obj gm; s_bvpc := s_bvpc s; s_ball := s_ball s;
                        s_best := s_best s; s_worst := s_worst s; s_rounds := s_rounds s; s_gen := s_gen s ++ [(m_lp (s_solver s), re_gmics e)] |}
            end
        end
    end
  else Some s.
(** Lines 529-660: generating VPCs and collecting what is reported about them. *)
Definition vpc_part (e : roundenv) (s : mainst) : mainst :=
  if re_should e then
    {| s_solver := s_solver s; s_gm := s_gm s; s_vp := s_vp s; s_all := s_all s; s_gmics := s_gmics s; s_vpcs := s_vpcs s ++ re_vpcs e;
       s_ngmic := s_ngmic s; s_nvpc := if is_nil (re_disjs e) then s_nvpc s else s_nvpc s + re_num e;
       s_bgmic := s_bgmic s; s_bvpc := s_bvpc s; s_ball := s_ball s;
       s_best := fold_left (fun b d => max_if b (fst d)) (re_disjs e) (s_best s);
       s_worst := fold_left (fun b d => max_if b (snd d)) (re_disjs e) (s_worst s);
       s_rounds := s_rounds s; s_gen := s_gen s ++ [(m_lp (s_solver s), re_vpcs e)] |}
  else s.
(** vpcs_by_round[round_ind]. *)
(** main.cpp:551-640. *)
Definition round_vpcs (e : roundenv) : list cut := if re_should e then re_vpcs e else [].
(** Lines 662-708: applying them, and the bounds reported.  [o0]: the objective when the round started. *)
Definition apply_part (g : Z) (ask : nat -> solver_oracle) (e : roundenv) (o0 : option Q) (s : mainst) : option mainst :=
  match (if is_nil (round_vpcs e) then Some (s_vp s, s_solver s, s_all s)
         else if negb (g =? 0)%Z then
           match m_apply (ask 3%nat) (s_vp s) (round_vpcs e) with
           | None => None
           | Some vp => match m_apply (ask 4%nat) (s_solver s) (round_vpcs e) with
                        | None => None
                        | Some so => match m_apply (ask 5%nat) (s_all s) (round_vpcs e) with
                                     | None => None
                                     | Some al => Some (vp, so, al)
                                     end
                        end
           end
         else match m_apply (ask 4%nat) (s_solver s) (round_vpcs e) with
              | None => None
              | Some so => Some (s_vp s, so, s_all s)
              end) with
  | None => None
  | Some (vp, so, al) =>
      let bv := m_obj (if negb (g =? 0)%Z then vp else so) in
      let ba := m_obj (if negb (g =? 0)%Z then al else so) in
      Some {| s_solver := so; s_gm := s_gm s; s_vp := vp; s_all := al; s_gmics := s_gmics s; s_vpcs := s_vpcs s; s_ngmic := s_ngmic s; s_nvpc := s_nvpc s;
              s_bgmic := s_bgmic s; s_bvpc := bv; s_ball := ba; s_best := s_best s; s_worst := s_worst s;
              s_rounds := s_rounds s ++ [{| ri_lp := o0; ri_gmic := if negb (g =? 0)%Z then s_bgmic s else None; ri_vpc := bv; ri_all := ba;
                                            ri_ngmic := if negb (g =? 0)%Z then length (re_gmics e) else 0;
                                            ri_nvpc := if re_should e && negb (is_nil (re_disjs e)) then re_num e else 0 |}];
              s_gen := s_gen s |}
  end.
(** Lines 815-831: leave the loop? *)
Definition stops (g : Z) (e : roundenv) (s : mainst) : bool :=
  re_timeup e || (re_should e && is_nil (re_vpcs e))
  || (negb (re_should e) && is_nil (if negb (g =? 0)%Z then re_gmics e else []))
  || (match m_obj (s_solver s) with None => true | Some v => isInfinity (Qabs v) DBL_MAX EPS7 end) || re_found e.
(** Lines 459-834; [fuel]: rounds left. *)
Fixpoint main_rounds (g : Z) (ask : nat -> nat -> solver_oracle) (env : nat -> roundenv) (fuel k : nat) (s : mainst) : option mainst :=
  match fuel with
  | O => Some s
  | S f =>
      match gomory_part g (ask k) (env k) s with
      | None => None
      | Some s1 =>
          match apply_part g (ask k) (env k) (m_obj (s_solver s)) (vpc_part (env k) s1) with
          | None => None
          | Some s2 => if stops g (env k) s2 then Some s2 else main_rounds g ask env f (S k) s2
          end
      end
  end.
(** Lines 205-226 and 457, analysis.hpp:30-47: the solved relaxation [P] with value [v0], its clones, and fresh statistics. *)
Definition main_start (P : lp) (v0 : Q) : mainst :=
  let so := {| m_lp := P; m_now := LOptimal v0 |} in
  {| s_solver := so; s_gm := so; s_vp := so; s_all := so; s_gmics := []; s_vpcs := []; s_ngmic := 0; s_nvpc := 0;
     s_bgmic := Some DBL_MAX; s_bvpc := Some DBL_MAX; s_ball := Some DBL_MAX; s_best := - DBL_MAX; s_worst := - DBL_MAX; s_rounds := []; s_gen := [] |}.
(** Lines 874-877: the solvers handed to the analysis for GMICs, VPCs and all cuts. *)
Definition analysed (g : Z) (s : mainst) : option msolver * msolver * msolver :=
  (if (g =? 0)%Z then None else Some (s_gm s), if (g <=? 0)%Z then s_solver s else s_vp s, if (0 <=? g)%Z then s_solver s else s_all s).
