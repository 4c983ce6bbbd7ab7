(** C57: generating cuts must leave the caller's problem as it was.  The argument is const, but the cast
    at CglVPC.cpp:375 removes the const and lines 389-402 work on the caller's object. *)
From Verif Require Import Prelude Model.LP Model.SolverHelper Spec.LPSpec Spec.SolverSpec Proofs.SolverHelperP Properties.C45_Minimisation.

(** A minimisation problem is left alone by that block. *)
Theorem caller_kept : forall P, os_sense P == 1 -> minimise P = P.
Proof. intros P H. unfold minimise. destruct (Qltb_reflect (os_sense P) (1 # 1000)) as [L|L]; [rewrite H in L; lra|reflexivity]. Qed.
Print Assumptions caller_kept.

(** Refuted for maximisation: every such problem comes back as a minimisation with all objective
    coefficients and the objective value negated. *)
Theorem caller_changed_refuted : forall P, os_sense P == -(1) ->
  os_sense (minimise P) == 1 /\
  (forall j, (j < ncols (os_lp P))%nat -> obj (os_lp (minimise P)) j == - obj (os_lp P) j) /\
  (forall x, obj_value (minimise P) x == - obj_value P x).
Proof.
  intros P H. unfold minimise. destruct (Qltb_reflect (os_sense P) (1 # 1000)) as [L|L]; [|rewrite H in L; lra].
  split; [reflexivity|]. split; [|apply flip_value].
  intros j Hj. cbn [flip_to os_lp set_obj obj]. rewrite negate_obj_at. destruct (Nat.ltb_spec j (ncols (os_lp P))); [ring|lia].
Qed.
Print Assumptions caller_changed_refuted.

Example caller_changed_meets : os_sense exmax == -(1) /\ obj (os_lp exmax) 0 == 3 /\ obj (os_lp (minimise exmax)) 0 == -(3) /\
  minimise exmax <> exmax.
Proof. split; [reflexivity|]. split; [reflexivity|]. split; [reflexivity|]. intro E. apply (f_equal (fun P => os_sense P)) in E. discriminate. Qed.
