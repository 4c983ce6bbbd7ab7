(** A concrete generator run used to show that the hypotheses of the bookkeeping theorems are met. *)
From Verif Require Import Prelude Model.Generator Model.Generate Spec.GenSpec.

Definition exE : genv :=
  {| e_norm := fun _ => 1;
     e_ortho := fun c d => match crow c, crow d with
                           | (i, _) :: _, (j, _) :: _ => if Nat.eqb i j then 1 # 100 else 1 | _, _ => 1 end;
     e_sol := fun _ => 0; e_minortho := 1 # 10; e_eps := EPS7; e_minvabs := EPS7; e_minvrel := EPS7 |}.

Definition exg : gstate :=
  {| g_cuts := []; g_type := []; g_heur := []; g_disj := []; g_ntype := fun _ => 0%Z; g_nheur := fun _ => 0%Z;
     g_nobj := fun _ => 0%Z; g_nfailheur := fun _ => 0%Z; g_nfails := fun _ => 0%Z; g_num_cuts := 0;
     g_num_obj := 0; g_num_fail := 0; g_init := 0; g_canrep := false; g_repeat := false;
     g_mode := PARTIAL_BB; g_curr := 0; g_limit := -2 |}.
Definition exv : vpc :=
  {| v_g := exg; v_pmode := PARTIAL_BB; v_terms := 4; v_flip := -1; v_tikz := false; v_prlptime := 5;
     v_disj := false; v_set := false; v_user := [0%nat]; v_exit := UNKNOWN_EXIT |}.

(** cut  a*x_i + ... >= b *)
Definition mkc (r : packed) (b : Q) : cut := {| crow := r; crhs := b |}.
Definition okat (h : objtype) (c : cut) : attempt :=
  {| a_heur := h; a_optimal := true; a_dualinf := false; a_iterlim := false; a_hitmax := false;
     a_abandoned := false; a_primalinf := false; a_same := false; a_cut := c; a_clean := CleanOK |}.
Definition badat (h : objtype) : attempt :=
  {| a_heur := h; a_optimal := false; a_dualinf := true; a_iterlim := false; a_hitmax := false;
     a_abandoned := false; a_primalinf := false; a_same := false; a_cut := mkc [] 0; a_clean := CleanOK |}.

Definition exrun : disjrun :=
  {| dr_time0 := false; dr_setup_fails := []; dr_time1 := false; dr_best := 3; dr_worst := 5; dr_lpopt := 1;
     dr_prlp := SUCCESS_EXIT; dr_prlp_fails := [];
     dr_user := fun _ => {| ua_attempt := badat USER; ua_time0 := false; ua_solvetime0 := 0; ua_time1 := false; ua_solvetime1 := 0 |};
     dr_target := [okat ALL_ONES (mkc [(0%nat, 1); (1%nat, 1)] 1);
                   badat DISJ_LB;
                   okat DISJ_LB (mkc [(1%nat, 1); (2%nat, 3)] 2);
                   okat TIGHT_POINTS (mkc [(1%nat, 2)] 3);
                   okat TIGHT_RAYS (mkc [(1%nat, 4)] 6)];
     dr_time2 := false; dr_solvetime2 := 0 |}.
Definition exo : callans :=
  {| ca_time0 := false; ca_nfrac := 3; ca_nfrac_default := 3; ca_optimal := true; ca_disj := D_SUCCESS;
     ca_objcut := mkc [] 0; ca_objcut_disj := 0; ca_root := [mkc [(5%nat, 1)] 1]; ca_root_ok := true;
     ca_root_fails := []; ca_setsize := 0; ca_run := fun _ => exrun |}.
Definition exgiven : list ecut := [{| ec := mkc [(7%nat, 1)] 1; eff := 1 |}].

(** One-sided cut, one cut, one failure, one cut, a replacement, a duplicate. *)
Lemma exrun_result : exists v', generateCuts exE exv exgiven exo = Some (v', g_cuts (v_g v')) /\
  map ec (g_cuts (v_g v')) = [mkc [(7%nat, 1)] 1; mkc [(5%nat, 1)] 1; mkc [(0%nat, 1); (1%nat, 1)] 1; mkc [(1%nat, 2)] 3]
  /\ g_type (v_g v') = [ONE_SIDED_CUT; VPC; VPC] /\ g_heur (v_g v') = [ONE_SIDED; ALL_ONES; TIGHT_POINTS]
  /\ g_num_obj (v_g v') = 5%nat /\ g_num_cuts (v_g v') = 3%nat /\ g_num_fail (v_g v') = 3%nat
  /\ v_exit v' = SUCCESS_EXIT.
Proof.
  exists (match generateCuts exE exv exgiven exo with Some (v, _) => v | None => exv end).
  vm_compute. repeat split.
Qed.
