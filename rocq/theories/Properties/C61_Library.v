(** C61: the library interface over any session of loading, solving, generating and applying cuts. *)
From Verif Require Import Prelude Model.LP Model.SolverHelper Model.Library Spec.LPSpec Spec.LibrarySpec Properties.C54_ApplyCuts.
From Verif Require Model.Disjunction Model.Generator Model.Generate Properties.C55_end_to_end Properties.C01_CutValidity Proofs.GenExamples.
#[local] Open Scope Q_scope.

Lemma apply_masked_spec mask : forall cs i P, exists l, chosen mask i cs l /\ with_cuts P l (apply_masked mask i cs P).
Proof.
  induction cs as [|c r IH]; intros i P; cbn [apply_masked].
  - exists []. split; [constructor|]. split; [reflexivity|]. split; [reflexivity|]. split; [cbn [length]; lia|]. intro x. split; [intro H; split; [exact H|constructor]|intros [H _]; exact H].
  - destruct (mask i) eqn:M.
    + destruct (IH (S i) (add_rows P [cut_row c])) as (l & C & W1 & W2 & W3 & W4). exists (c :: l). split; [constructor; assumption|].
      destruct (add_rows_cuts P [c]) as (A1 & A2 & A3 & A4). cbn [map length] in A1, A2, A3, A4.
      split; [congruence|]. split; [congruence|]. split; [rewrite W3, A3; cbn [length]; lia|].
      intro x. rewrite W4, A4. split.
      * intros [[F C1] C2]. split; [exact F|]. constructor; [inversion C1; assumption|exact C2].
      * intros [F C2]. inversion_clear C2 as [|? ? C3 C4]. split; [split; [exact F|constructor; [exact C3|constructor]]|exact C4].
    + destruct (IH (S i) P) as (l & C & W). exists l. split; [constructor; assumption|exact W].
Qed.
Lemma accepted_chosen acc : forall cs i, chosen acc i cs (accepted_cuts acc i cs).
Proof. induction cs as [|c r IH]; intro i; cbn [accepted_cuts]; [constructor|]. destruct (acc i) eqn:A; constructor; auto. Qed.

(** Applying cuts, with a mask or without: the problem afterwards is the problem before with exactly the chosen
    cuts added, in the order they are stored; the value returned is their number; the stored cuts are
    discarded exactly when asked for. *)
Theorem apply_exact : forall s mask clear o, o = WApply mask clear \/ o = WApplyAll mask clear ->
  exists l, chosen mask 0 (w_cuts s) l /\ with_cuts (w_lp s) l (w_lp (fst (wstep s o))) /\ snd (wstep s o) = length l /\
    w_int (fst (wstep s o)) = w_int s /\ w_cuts (fst (wstep s o)) = if clear then [] else w_cuts s.
Proof.
  intros s mask clear o [->| ->]; cbn [wstep fst snd w_lp w_int w_cuts].
  - destruct (apply_masked_spec mask (w_cuts s) 0 (w_lp s)) as (l & C & W). exists l. split; [exact C|]. split; [exact W|]. destruct W as (_ & _ & W & _).
    rewrite W. split; [lia|]. split; reflexivity.
  - exists (accepted_cuts mask 0 (w_cuts s)). split; [apply accepted_chosen|]. split; [apply add_rows_cuts|]. split; [reflexivity|]. split; reflexivity.
Qed.
Print Assumptions apply_exact.

Lemma chosen_in mask i cs l : chosen mask i cs l -> forall c, In c l -> In c cs.
Proof.
  induction 1 as [i|i c r l M C IH|i c r l M C IH]; intros x Hx; [destruct Hx| |right; apply IH, Hx].
  destruct Hx as [->|Hx]; [left; reflexivity|right; apply IH, Hx].
Qed.

(** The state of a session with respect to the problem [P] loaded: same columns and objective; no point gained; no
    integer-feasible point lost; the stored cuts are valid; each row beyond those of [P] was reported. *)
Definition session_ok (P : lp) (ints : nat -> bool) (s : iface) (rets : list nat) : Prop :=
  ncols (w_lp s) = ncols P /\ obj (w_lp s) = obj P /\ w_int s = ints /\ nrows (w_lp s) = (nrows P + total rets)%nat /\
  (forall x, feasible (w_lp s) x -> feasible P x) /\
  (forall x, integral ints (ncols P) x -> feasible P x -> feasible (w_lp s) x) /\
  valid_for P ints (w_cuts s).
Lemma total_app a b : total (a ++ b) = (total a + total b)%nat.
Proof. unfold total. induction a as [|x a IH]; [reflexivity|]. cbn [app fold_right]. rewrite IH. lia. Qed.
Lemma step_ok P ints s rets o : session_ok P ints s rets -> no_load o ->
  (match o with WGenerate (Some pool) => valid_for (w_lp s) (w_int s) (w_cuts s) -> valid_for (w_lp s) (w_int s) pool | _ => True end) ->
  session_ok P ints (fst (wstep s o)) (rets ++ [snd (wstep s o)]).
Proof.
  intros (S1 & S2 & S3 & S4 & S5 & S6 & S7) NL G.
  assert (AP : forall mask clear o', o' = WApply mask clear \/ o' = WApplyAll mask clear -> session_ok P ints (fst (wstep s o')) (rets ++ [snd (wstep s o')])).
  { intros mask clear o' E. destruct (apply_exact s mask clear o' E) as (l & C & (W1 & W2 & W3 & W4) & N & I0 & CU). unfold session_ok.
    rewrite N, I0, CU, total_app. split; [congruence|]. split; [congruence|]. split; [exact S3|]. split; [rewrite W3, S4; cbn [total fold_right]; lia|].
    split; [intros x F; apply W4 in F; apply S5, F|]. split.
    - intros x IN F. apply W4. split; [apply S6; assumption|]. apply Forall_forall. intros c Hc. apply S7; [exact (chosen_in _ _ _ _ C c Hc)|exact F|exact IN].
    - destruct clear; [intros c x []|exact S7]. }
  destruct o as [P' i'| |[pool|]|mask clear|mask clear]; [destruct NL| | | |apply (AP mask clear); left; reflexivity|apply (AP mask clear); right; reflexivity];
    unfold session_ok; rewrite total_app; cbn [wstep fst snd total fold_right w_lp w_int w_cuts]; rewrite !Nat.add_0_r; fold (total rets);
    (split; [exact S1|split; [exact S2|split; [exact S3|split; [exact S4|split; [exact S5|split; [exact S6|]]]]]]); try exact S7.
  assert (V : valid_for (w_lp s) (w_int s) (w_cuts s)).
  { intros c x Hc F IN. rewrite S1, S3 in IN. apply S7; [exact Hc|apply S5; exact F|exact IN]. }
  intros c x Hc F IN. apply (G V c x Hc); [apply S6; assumption|]. rewrite S1, S3. exact IN.
Qed.
(** A session: after loading a problem into an interface without stored cuts, any sequence of solves, generations
    (each of which keeps validity), and applications of any choice of the stored cuts, in any order, any number of
    times, with or without clearing. *)
Theorem session_preserves : forall s0 P ints l s rets, w_cuts s0 = [] -> Forall no_load l ->
  generations_valid (fst (wstep s0 (WLoad P ints))) l ->
  wrun s0 (WLoad P ints :: l) = (s, 0%nat :: rets) -> session_ok P ints s rets.
Proof.
  intros s0 P ints l s rets E NL G H. cbn [wrun wstep] in H. cbn [wstep fst] in G.
  set (s1 := {| w_lp := P; w_int := ints; w_cuts := w_cuts s0 |}) in *.
  assert (K : session_ok P ints s1 []).
  { unfold session_ok, s1. cbn [w_lp w_int w_cuts total fold_right]. split; [reflexivity|]. split; [reflexivity|]. split; [reflexivity|]. split; [lia|]. split; [trivial|].
    split; [trivial|]. rewrite E. intros c x []. }
  assert (GEN : forall l s1 r0 s rets, Forall no_load l -> generations_valid s1 l -> session_ok P ints s1 r0 -> wrun s1 l = (s, rets) -> session_ok P ints s (r0 ++ rets)).
  { clear. induction l as [|o l IH]; intros s1 r0 s rets NL G K H; cbn [wrun] in H.
    - injection H as <- <-. rewrite app_nil_r. exact K.
    - destruct (wstep s1 o) as [s2 n] eqn:ST. destruct (wrun s2 l) as [s3 ns] eqn:R. injection H as <- <-. inversion_clear NL as [|? ? N1 N2]. destruct G as [G1 G2].
      pose proof (step_ok P ints s1 r0 o K N1 G1) as K2. rewrite ST in K2, G2. cbn [fst snd] in K2, G2.
      specialize (IH s2 (r0 ++ [n]) s3 ns N2 G2 K2 R). rewrite <- app_assoc in IH. exact IH. }
  destruct (wrun s1 l) as [s3 ns] eqn:R. injection H as <- <-. exact (GEN l s1 [] s3 ns NL G K R).
Qed.
Print Assumptions session_preserves.
(** Hence the bound of the relaxation never gets worse and never exceeds the value of an integer-feasible point. *)
Theorem session_bound : forall s0 P ints l s rets v0 v, w_cuts s0 = [] -> Forall no_load l ->
  generations_valid (fst (wstep s0 (WLoad P ints))) l -> wrun s0 (WLoad P ints :: l) = (s, 0%nat :: rets) ->
  lp_opt P v0 -> lp_opt (w_lp s) v ->
  v0 <= v /\ forall x, feasible P x -> integral ints (ncols P) x -> v <= lp_value P x.
Proof.
  intros s0 P ints l s rets v0 v E NL G H [_ O0] [(y & FY & VY) O1].
  destruct (session_preserves s0 P ints l s rets E NL G H) as (S1 & S2 & _ & _ & S5 & S6 & _).
  assert (EV : forall x, lp_value (w_lp s) x = lp_value P x) by (intro x; unfold lp_value; rewrite S1, S2; reflexivity). split.
  - rewrite <- VY, EV. apply O0, S5, FY.
  - intros x F IN. rewrite <- EV. apply O1, S6; assumption.
Qed.
Print Assumptions session_bound.

(** ** Example and refutations: the box [0, 3/2], x integer, and the valid cut x <= 1. *)
Definition boxP (u : Q) : lp := {| ncols := 1; nrows := 0; clo := fun _ => Some 0; cup := fun _ => Some u;
  rows := fun _ => {| rcoef := []; rlo := None; rup := None |}; obj := fun _ => -(1) |}.
(** x <= 1, as a cut. *)
Definition le1 : cut := {| crow := [(0%nat, -(1))]; crhs := -(1) |}.
Lemma le1_valid : valid_for (boxP (3#2)) (fun _ => true) [le1].
Proof.
  intros c x [<-|[]] [B _] IN. destruct (IN 0%nat) as (z & Z0); [cbn; lia|reflexivity|]. specialize (B 0%nat ltac:(cbn; lia)). cbn [boxP clo cup above below] in B.
  unfold satisfies_cut, le1. cbn [crow crhs]. rewrite pdot_cons, pdot_nil. cbn [fst snd]. rewrite Z0 in B |- *.
  assert (H : (z <= 1)%Z); [|rewrite Zle_Qle in H; change (inject_Z 1) with 1 in H; lra]. destruct B as [_ B]. assert (H : inject_Z z < inject_Z 2) by (change (inject_Z 2) with 2; lra). rewrite <- Zlt_Qlt in H. lia.
Qed.
Definition exsession : list wop := [WSolve; WGenerate (Some [le1]); WApply (fun _ => true) false; WSolve; WGenerate (Some [le1; le1]); WApplyAll (fun i => Nat.eqb i 1) true].
Example session_example : exists s rets, wrun w_new (WLoad (boxP (3#2)) (fun _ => true) :: exsession) = (s, 0%nat :: rets) /\
  generations_valid (fst (wstep w_new (WLoad (boxP (3#2)) (fun _ => true)))) exsession /\ Forall no_load exsession /\
  rets = [0; 0; 1; 0; 0; 1]%nat /\ nrows (w_lp s) = 2%nat /\ w_cuts s = [].
Proof.
  eexists _, _. split; [reflexivity|]. split.
  - cbn [exsession generations_valid wstep fst w_lp w_int w_cuts w_new apply_masked]. split; [exact Logic.I|]. split; [intros _; exact le1_valid|]. split; [exact Logic.I|]. split; [exact Logic.I|].
    split; [|split; [exact Logic.I|exact Logic.I]]. intros V c x Hc F IN.
    destruct Hc as [<-|[<-|[]]]; apply (V le1 x (or_introl eq_refl) F IN).
  - split; [repeat constructor|]. repeat split.
Qed.
(** Refuted: after loading another problem the interface works on that problem alone — cuts stored for the first
    problem stay and are applied to the second, where they cut off an integer point. *)
Theorem reload_refuted : exists l1 P2 s rets x,
  generations_valid (fst (wstep w_new (WLoad (boxP (3#2)) (fun _ => true)))) l1 /\ Forall no_load l1 /\
  wrun w_new (WLoad (boxP (3#2)) (fun _ => true) :: l1 ++ [WLoad P2 (fun _ => true); WSolve; WApplyAll (fun _ => true) true]) = (s, rets) /\
  feasible P2 x /\ integral (fun _ => true) (ncols P2) x /\ ~ feasible (w_lp s) x.
Proof.
  eexists [WSolve; WGenerate (Some [le1])], (boxP 5), _, _, (fun _ => 2). split.
  { cbn [generations_valid wstep fst w_lp w_int w_cuts w_new]. split; [exact Logic.I|]. split; [intros _; exact le1_valid|exact Logic.I]. }
  split; [repeat constructor|]. split; [reflexivity|]. split.
  { split; [intros j Hj; cbn [boxP clo cup above below]; split; vm_compute; discriminate|intros i Hi; cbn in Hi; lia]. }
  split; [intros j Hj _; exists 2%Z; reflexivity|]. intro F. apply (add_rows_cuts (boxP 5) [le1]) in F. destruct F as [_ F]. inversion_clear F as [|? ? C _].
  vm_compute in C. apply C. reflexivity.
Qed.
Print Assumptions reload_refuted.
(** Refuted: a generated cut is added to the problem once — applying without clearing, generating again (the new cuts
    are appended to the stored ones) and applying again adds the first cut twice. *)
Theorem applied_once_refuted : forall P ints a b, a <> b ->
  let '(s, rets) := wrun w_new [WLoad P ints; WGenerate (Some [a]); WApplyAll (fun _ => true) false; WGenerate (Some [a; b]); WApplyAll (fun _ => true) false] in
  rets = [0; 0; 1; 0; 2]%nat /\ nrows (w_lp s) = (nrows P + 3)%nat /\
  rows (w_lp s) (nrows P) = cut_row a /\ rows (w_lp s) (nrows P + 1) = cut_row a.
Proof.
  intros P ints a b NE. cbn [wrun wstep w_cuts w_lp w_int w_new accepted_cuts map length add_rows nrows rows]. split; [reflexivity|]. split; [lia|].
  destruct (Nat.ltb_spec (nrows P) (nrows P + 1)) as [_|]; [|lia]. destruct (Nat.ltb_spec (nrows P) (nrows P)) as [|_]; [lia|]. rewrite Nat.sub_diag. cbn [nth]. split; [reflexivity|].
  destruct (Nat.ltb_spec (nrows P + 1) (nrows P + 1)) as [|_]; [lia|]. rewrite Nat.sub_diag. reflexivity.
Qed.
Print Assumptions applied_once_refuted.

(** ** Rounds of cuts from split disjunctions. *)
(** The stored cuts are replaced by what one call of the generator working on split disjunctions of the problem at
    hand returns (the premises are those of C55's [split_call_valid]). *)
Definition split_generation (s : iface) (pool : list cut) : Prop :=
  exists E v given o v' cuts dj, map Model.Generator.ec given = w_cuts s /\ pool = map Model.Generator.ec cuts /\
    Model.Generate.generateCuts E v given o = Some (v', cuts) /\ (forall j, Properties.C55_end_to_end.split_of (w_lp s) (w_int s) (dj j)) /\ Model.Generate.ca_disj o <> Model.Generate.D_OPTIMAL_SOLUTION_FOUND /\
    (forall c, In c (Model.Generate.ca_root o) -> exists j r, In r (Model.Disjunction.one_sided_cuts (dj j)) /\ Properties.C55_end_to_end.cut_of_row r c) /\
    (forall j a, In a (Model.Generate.dr_target (Model.Generate.ca_run o j)) -> Model.Generator.a_optimal a = true -> Model.Generator.a_clean a = Model.CutHelper.CleanOK ->
      inhabited (Properties.C55_end_to_end.production (w_lp s) (dj j) (Model.Generator.a_cut a))).
Fixpoint split_session (s : iface) (l : list wop) : Prop :=
  match l with
  | [] => True
  | o :: r => match o with WGenerate (Some pool) => split_generation s pool | _ => True end /\ split_session (fst (wstep s o)) r
  end.
Lemma split_generation_valid s pool : split_generation s pool -> valid_for (w_lp s) (w_int s) (w_cuts s) -> valid_for (w_lp s) (w_int s) pool.
Proof.
  intros (E & v & given & o & v' & cuts & dj & EG & -> & H & S & NO & RC & AT) V c x Hc F IN. apply in_map_iff in Hc. destruct Hc as (e & <- & He).
  refine (Properties.C55_end_to_end.split_call_valid (w_lp s) (w_int s) E v given o v' cuts dj H S NO RC AT _ e x He F IN).
  intros c' y Hc' FY IY. apply (V (Model.Generator.ec c') y); [|exact FY|exact IY]. rewrite <- EG. apply in_map, Hc'.
Qed.
(** Any session in which all cuts come from such calls — the later rounds working on the problem with the cuts of the
    earlier ones — keeps every integer-feasible point of the problem loaded. *)
Theorem split_rounds_valid : forall s0 P ints l s rets, w_cuts s0 = [] -> Forall no_load l ->
  split_session (fst (wstep s0 (WLoad P ints))) l -> wrun s0 (WLoad P ints :: l) = (s, 0%nat :: rets) -> session_ok P ints s rets.
Proof.
  intros s0 P ints l s rets E NL G H. apply (session_preserves s0 P ints l s rets E NL); [|exact H]. revert G. generalize (fst (wstep s0 (WLoad P ints))). clear.
  induction l as [|o l IH]; intros s G; [exact Logic.I|]. destruct G as [G1 G2]. split; [|apply IH, G2].
  destruct o as [P' i'| |[pool|]|mask clear|mask clear]; try exact Logic.I. apply split_generation_valid, G1.
Qed.
Print Assumptions split_rounds_valid.
(** The problem and cut of C55's example: one round gives one cut, which removes the LP solution; no integer point is lost. *)
Example split_rounds_example : exists s, split_session (fst (wstep w_new (WLoad Properties.C01_CutValidity.vP (fun _ => true)))) [WSolve; WGenerate (Some [Properties.C55_end_to_end.sCut]); WApply (fun _ => true) true] /\
  wrun w_new (WLoad Properties.C01_CutValidity.vP (fun _ => true) :: [WSolve; WGenerate (Some [Properties.C55_end_to_end.sCut]); WApply (fun _ => true) true]) = (s, [0; 0; 0; 1]%nat) /\
  w_cuts s = [].
Proof.
  eexists. split; [|split; [reflexivity|reflexivity]]. cbn [split_session wstep fst]. split; [exact Logic.I|]. split; [|split; exact Logic.I].
  destruct Properties.C55_end_to_end.split_call_example as (v' & c & H & EC & _). exists Proofs.GenExamples.exE, Properties.C55_end_to_end.sV, [], Properties.C55_end_to_end.sOracle, v', [c], (fun _ => Properties.C55_end_to_end.sD).
  split; [reflexivity|]. split; [cbn [map]; rewrite EC; reflexivity|]. split; [exact H|]. split; [intros _; exact Properties.C55_end_to_end.sD_split|]. split; [discriminate|]. split; [intros k []|].
  intros j a [<-|[]] _ _. constructor. apply Properties.C55_end_to_end.sCut_produced; reflexivity.
Qed.
