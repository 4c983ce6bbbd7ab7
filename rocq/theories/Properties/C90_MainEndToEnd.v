(** C90: the main program from the first round to the last bound: generation on the current problem, application to
    the solvers, the next round. *)
From Verif Require Import Prelude Model.LP Model.Tolerance Model.SolverHelper Model.MainRounds Model.BasisStatus Model.NBSpace Model.PRCollection
  Model.CutHelper Model.Disjunction Model.EventHandler Model.Setup Model.PRLPSetup Model.Generator Model.Generate Model.ObjectiveCut
  Spec.LPSpec Spec.SolverSpec Spec.LibrarySpec Spec.TreeSpec Spec.NBSpec Spec.TermSpec Spec.CutSpec Spec.DisjSpec Spec.PRLPSpec Spec.MainSpec
  Proofs.ToleranceP Proofs.DisjunctionP Proofs.PRLPSetupP Proofs.GenExamples Properties.C06_tree_coverage Properties.C05_Split Properties.C01_CutValidity Properties.C21_OneCut
  Properties.C54_ApplyCuts Properties.C55_end_to_end Properties.C62_MainRounds.
From Coq Require Import Lqa.
#[local] Open Scope Q_scope.

(** ** The objective cut. *)
Lemma objective_row_sum EPS P x : forall l, pdot (flat_map (fun i => if negb (isVal (obj P i) EPS EPS7) then [(i, obj P i)] else []) l) x ==
  Qsumf (fun i => if negb (isVal (obj P i) EPS EPS7) then obj P i * x i else 0) l.
Proof.
  induction l as [|i l IH]; [reflexivity|]. cbn [flat_map]. rewrite Qsumf_cons, <- IH. destruct (negb _); cbn [app]; [rewrite pdot_cons; reflexivity|ring].
Qed.
(** It is the objective when no coefficient is within 1e-7 of EPS. *)
Theorem objective_cut_exact : forall EPS P offset v, (forall i, (i < ncols P)%nat -> ~ Qabs (obj P i - EPS) < EPS7) ->
  forall x, satisfies_cut (objective_cut EPS P offset v) x <-> v <= lp_value P x - offset.
Proof.
  intros EPS P offset v W x. unfold satisfies_cut, objective_cut. cbn [crow crhs]. unfold objective_row.
  assert (E : pdot (flat_map (fun i => if negb (isVal (obj P i) EPS EPS7) then [(i, obj P i)] else []) (seq 0 (ncols P))) x == lp_value P x).
  { rewrite objective_row_sum. unfold lp_value. apply Qsumf_ext. intros i Hi. apply in_seq in Hi. unfold isVal. destruct (Qltb_reflect (Qabs (obj P i - EPS)) EPS7) as [L|]; [|reflexivity].
    exfalso. apply (W i); [lia|exact L]. }
  rewrite E. split; intro; lra.
Qed.
Print Assumptions objective_cut_exact.

(** Coefficients near EPS = 1e-7 are dropped, and zero coefficients are not: minimising 1e-7 x over x >= 10^7 with x
    integer, whose optimal value is 1, the cut says 0 >= 1 and every point is lost. *)
Definition tinyP : lp := {| ncols := 1; nrows := 0; clo := fun _ => Some 10000000; cup := fun _ => None; rows := fun _ => {| rcoef := []; rlo := None; rup := None |};
  obj := fun _ => 1 # 10000000 |}.
Theorem objective_cut_refuted : exists P v x, feasible P x /\ integral (fun _ => true) (ncols P) x /\ lp_value P x == v /\
  (forall y, feasible P y -> v <= lp_value P y) /\ forall y, ~ satisfies_cut (objective_cut EPS7 P 0 v) y.
Proof.
  exists tinyP, 1, (fun _ => 10000000). split; [split|].
  - intros j Hj. split; [apply Qle_refl|exact Logic.I].
  - intros i Hi. cbn [tinyP nrows] in Hi. lia.
  - split; [intros j _ _; exists 10000000%Z; reflexivity|]. split; [reflexivity|]. split.
    + intros y [B _]. destruct (B 0%nat ltac:(cbn [tinyP ncols]; lia)) as [L _]. cbn [tinyP clo above] in L.
      assert (E : lp_value tinyP y == (1 # 10000000) * y 0%nat) by (unfold lp_value; cbn [tinyP ncols obj seq]; rewrite Qsumf_cons, Qsumf_nil; ring).
      rewrite E. lra.
    + intros y. unfold satisfies_cut. assert (E : crow (objective_cut EPS7 tinyP 0 1) = []) by (vm_compute; reflexivity). rewrite E, pdot_nil. cbn [objective_cut crhs]. lra.
Qed.
Print Assumptions objective_cut_refuted.

(** ** One call. *)
Lemma built_for_contains R ints x d : built_for R ints x d -> feasible R x -> integral ints (ncols R) x -> in_disj d x.
Proof.
  intros B F IN. destruct B as [d (AWAY & x0 & ans & order & d0 & A1 & A2 & A3 & A4 & A5 & A6)|cfg lo0 up0 root h st a st' N RO MX HI L ST XB G].
  - destruct (split_covers AWAY R ints x0 ans order d0 d A1 A2 A3 A4 A5 A6) as (col & t1 & t2 & B). apply B; assumption.
  - apply (tree_covers cfg ints lo0 up0 root disj_new h st a st' RO MX HI L ST); rewrite ?N; assumption.
Qed.
Theorem call_keeps : forall ints R cs x, vpc_call ints R cs x -> feasible R x -> integral ints (ncols R) x -> forall c, In c cs -> satisfies_cut c x.
Proof.
  intros ints R cs x (E & u & o & u' & cuts & H & -> & RC & AT & OB) F IN c C. apply in_map_iff in C. destruct C as (k & <- & C).
  apply (returned_cuts_inherit (fun k => satisfies_cut k x) E u [] o u' cuts H); [intros ? []| | | |exact C].
  - intros q Q. destruct (RC q Q) as (d & r & BF & IR & C1 & C2). pose proof (built_for_contains R ints x d BF F IN) as [[S1 S2] _].
    unfold one_sided_cuts in IR. unfold satisfies_cut. rewrite C1.
    assert (SR : sat_row r x).
    { apply in_app_or in IR. destruct IR as [IR|IR]; [|apply S2, IR]. apply in_map_iff in IR. destruct IR as (b & <- & IR). apply change_row_sat, S1, IR. }
    destruct SR as [SR _]. rewrite C2 in SR. exact SR.
  - intro Q. destruct (OB Q) as (EPS & off & v & -> & W & LE). apply objective_cut_exact; assumption.
  - intros j a A A1 A2. destruct (AT j a A A1 A2) as (d & BF & [p]). apply (produced_cut_valid R d _ p x F), (built_for_contains R ints); assumption.
Qed.
Print Assumptions call_keeps.

(** ** All rounds. *)
(** Where the cuts of a round came from, as far as [x] is concerned: Gomory cuts (external) are satisfied by [x] if it is
    feasible for the problem they were generated for; VPCs come from a call as above. *)
Definition round_calls (ints : nat -> bool) (env : nat -> roundenv) (x : nat -> Q) (r : lp * list cut) : Prop :=
  (exists k, snd r = re_gmics (env k) /\ (feasible (fst r) x -> forall c, In c (snd r) -> satisfies_cut c x)) \/
  (exists k, snd r = re_vpcs (env k) /\ vpc_call ints (fst r) (snd r) x).
Lemma with_cuts_point P l R x : with_cuts P l R -> (feasible R x <-> feasible P x /\ Forall (fun c => satisfies_cut c x) l).
Proof. intros (_ & _ & _ & D). apply D. Qed.
Lemma round_calls_ok ints env x r P l : with_cuts P l (fst r) -> round_calls ints env x r -> feasible P x -> integral ints (ncols P) x ->
  Forall (fun c => satisfies_cut c x) l -> Forall (fun c => satisfies_cut c x) (snd r).
Proof.
  intros W C F IN V. assert (FR : feasible (fst r) x) by (apply (with_cuts_point P l _ x W); split; assumption).
  apply Forall_forall. destruct C as [(k & _ & G)|(k & _ & G)]; [exact (G FR)|]. destruct W as (NC & _). apply (call_keeps ints (fst r) (snd r) x G FR). rewrite NC. exact IN.
Qed.
Lemma rounds_point g ask env n P v0 ints x s : (-1 <= g <= 1)%Z -> (forall k i, decisive (lists env) P (ask k i)) -> lp_opt P v0 ->
  main_rounds g ask env n 0 (main_start P v0) = Some s -> feasible P x -> integral ints (ncols P) x -> Forall (round_calls ints env x) (s_gen s) ->
  exists k, (k <= n)%nat /\ contents (lists env) g P (s_gmics s) (s_vpcs s) s /\ reports g v0 k s /\ Forall (fun c => satisfies_cut c x) (s_gmics s ++ s_vpcs s).
Proof.
  intros GB D O H F IN AV.
  destruct (main_ind (fun k s => contents (lists env) g P (s_gmics s) (s_vpcs s) s /\ reports g v0 k s /\
      (Forall (round_calls ints env x) (s_gen s) -> Forall (fun c => satisfies_cut c x) (s_gmics s ++ s_vpcs s))) g ask env)
    with (fuel := n) (k := 0%nat) (s := main_start P v0) (s' := s) as (k' & BK & C & R & V); [| |exact H|].
  { intros k a a1 a2 (C & R & V) E1 E2.
    split; [exact (contents_step (lists env) g (ask k) (env k) P _ a a1 a2 GB (lists_g env k) (lists_v env k) (D k) C E1 E2)|].
    split; [exact (reports_step (lists env) g (ask k) (env k) P v0 k a a1 a2 GB (lists_g env k) (lists_v env k) (D k) C R E1 E2)|].
    intro AV2. destruct (gomory_ok (lists env) g (ask k) (env k) a a1 P GB (lists_g env k) (D k) C E1) as [C1 EV].
    assert (X : s_gen a2 = s_gen (vpc_part (env k) a1) /\ s_gmics a2 = s_gmics (vpc_part (env k) a1) /\ s_vpcs a2 = s_vpcs (vpc_part (env k) a1)).
    { unfold apply_part in E2. destruct (if is_nil _ then _ else _) as [[[vp so] al]|]; [|discriminate]. injection E2 as <-. repeat split. }
    destruct X as (X1 & X2 & X3). rewrite X2, X3. destruct (vpc_frame (env k) a1) as (_ & _ & _ & _ & F5 & F6 & _). rewrite F5, F6. rewrite X1 in AV2.
    assert (AV1 : Forall (round_calls ints env x) (s_gen a1) /\
      (Forall (fun c => satisfies_cut c x) (solver_list g (s_gmics a1) (s_vpcs a)) -> Forall (fun c => satisfies_cut c x) (round_vpcs (env k)))).
    { destruct C1 as (W & _). unfold vpc_part, round_vpcs in *. destruct (re_should (env k)); [|split; [exact AV2|intros _; constructor]].
      cbn [s_gen] in AV2. apply Forall_app in AV2. destruct AV2 as [AV2 AV3]. split; [exact AV2|]. inversion_clear AV3 as [|? ? VV _].
      intro VL. exact (round_calls_ok ints env x (m_lp (s_solver a1), re_vpcs (env k)) P _ W VV F IN VL). }
    destruct AV1 as [AV1 VN].
    assert (V1 : Forall (fun c => satisfies_cut c x) (s_gmics a1) /\ Forall (fun c => satisfies_cut c x) (s_vpcs a)).
    { destruct C as (W & _). unfold gomory_part in E1. destruct ((g =? -1)%Z || (g =? 1)%Z).
      - destruct (m_apply (ask k 0%nat) (s_gm a) _) as [gm|]; [|discriminate]. destruct (if (0 <? g)%Z then _ else _) as [so|]; [|discriminate].
        destruct (m_apply (ask k 2%nat) (s_all a) _) as [al|]; [|discriminate]. injection E1 as <-. cbn [s_gmics]. cbn [s_gen] in AV1.
        apply Forall_app in AV1. destruct AV1 as [AV1 AV4]. inversion_clear AV4 as [|? ? VV _]. specialize (V AV1). apply Forall_app in V. destruct V as [VG VP].
        split; [|exact VP]. apply Forall_app. split; [exact VG|]. refine (round_calls_ok ints env x (m_lp (s_solver a), re_gmics (env k)) P _ W VV F IN _). unfold solver_list. destruct (0 <? g)%Z; [apply Forall_app; split; assumption|exact VP].
      - injection E1 as <-. apply Forall_app, V, AV1. }
    destruct V1 as [VG VP]. rewrite EV. apply Forall_app. split; [exact VG|]. apply Forall_app. split; [exact VP|]. apply VN. unfold solver_list. destruct (0 <? g)%Z; [apply Forall_app; split; assumption|exact VP]. }
  { split; [apply contents_start, O|]. split; [|intros _; constructor]. unfold reports, vpcS, allS, main_start. cbn [s_rounds s_solver s_vp s_all s_gm length map]. split; [reflexivity|].
    assert (RR : exists v, m_obj {| m_lp := P; m_now := LOptimal v0 |} = Some v /\ reported [] v0 v).
    { exists v0. split; [reflexivity|]. exists []. split; [reflexivity|]. split; [constructor; constructor|reflexivity]. }
    split; [destruct (g =? 0)%Z; exact RR|]. split; [destruct (g =? 0)%Z; exact RR|]. split; [intros _; exact RR|lia]. }
  exists k'. split; [lia|]. split; [exact C|]. split; [exact R|]. exact (V AV).
Qed.

(** An integer point of the original problem that no tree gave up satisfies all cuts of all rounds, stays feasible in
    every solver, and none of the bounds reported by the last round exceeds its value. *)
Theorem main_keeps_point : forall g ask env n P v0 ints x s, (-1 <= g <= 1)%Z -> (forall k i, decisive (lists env) P (ask k i)) -> lp_opt P v0 -> (0 < n)%nat ->
  main_rounds g ask env n 0 (main_start P v0) = Some s -> feasible P x -> integral ints (ncols P) x -> Forall (round_calls ints env x) (s_gen s) ->
  Forall (fun c => satisfies_cut c x) (s_gmics s ++ s_vpcs s) /\
  feasible (m_lp (s_solver s)) x /\ (g <> 0%Z -> feasible (m_lp (s_gm s)) x /\ feasible (m_lp (s_vp s)) x /\ feasible (m_lp (s_all s)) x) /\
  (exists b, s_bvpc s = Some b /\ b <= lp_value P x) /\ (exists b, s_ball s = Some b /\ b <= lp_value P x) /\
  (g <> 0%Z -> exists b, s_bgmic s = Some b /\ b <= lp_value P x).
Proof.
  intros g ask env n P v0 ints x s GB D O N H F IN AV.
  destruct (rounds_point g ask env n P v0 ints x s GB D O H F IN AV) as (k & _ & C & R & V). split; [exact V|]. apply Forall_app in V. destruct V as [VG VP].
  destruct (reported_bounds g ask env n P v0 s GB D O N H) as (_ & _ & _ & _ & KP & _).
  assert (UP : forall m l, with_cuts P l (m_lp m) -> solved m -> Forall (fun c => satisfies_cut c x) l -> feasible (m_lp m) x /\ exists b, m_obj m = Some b /\ b <= lp_value P x).
  { intros m l W (v & Y & [_ OV]) VL. assert (FM : feasible (m_lp m) x) by (apply (with_cuts_point P l _ x W); split; assumption).
    split; [exact FM|]. exists v. unfold m_obj. rewrite Y. split; [reflexivity|]. destruct W as (NC & OB & _). specialize (OV x FM). unfold lp_value in *. rewrite NC, OB in OV. exact OV. }
  destruct R as (R0 & _ & _ & _ & R4). destruct (R4 ltac:(lia)) as (B1 & B2 & B3).
  destruct (contents_reported _ g P _ _ s C) as (P1 & P2 & P3 & P4). destruct C as (C1 & (_ & C2) & C3 & C4).
  split; [apply (UP _ _ C1 C2); unfold solver_list; destruct (0 <? g)%Z; [apply Forall_app; split|]; assumption|]. split; [|split; [|split]].
  - intro NZ. destruct (C3 NZ) as (A1 & (_ & A2) & A3 & (_ & A4) & A5 & (_ & A6)). split; [exact (proj1 (UP _ _ A1 A2 VG))|]. split; [exact (proj1 (UP _ _ A3 A4 VP))|].
    apply (UP _ _ A5 A6). apply Forall_app. split; assumption.
  - rewrite B1. exact (proj2 (UP _ _ P1 P2 VP)).
  - rewrite B2. apply (UP _ _ P3 P4). apply Forall_app. split; assumption.
  - intro NZ. rewrite (B3 NZ). destruct (C3 NZ) as (A1 & (_ & A2) & _). exact (proj2 (UP _ _ A1 A2 VG)).
Qed.
Print Assumptions main_keeps_point.

(** If that holds of every integer-feasible point, the problem left in the main solver has exactly the integer-feasible
    points of the original one, so the same optimal integer solutions. *)
Theorem main_same_problem : forall g ask env n P v0 ints s, (-1 <= g <= 1)%Z -> (forall k i, decisive (lists env) P (ask k i)) -> lp_opt P v0 -> (0 < n)%nat ->
  main_rounds g ask env n 0 (main_start P v0) = Some s ->
  (forall x, feasible P x -> integral ints (ncols P) x -> Forall (round_calls ints env x) (s_gen s)) ->
  let F := m_lp (s_solver s) in ncols F = ncols P /\
  (forall x, (feasible F x /\ integral ints (ncols F) x) <-> (feasible P x /\ integral ints (ncols P) x)) /\ (forall x, lp_value F x = lp_value P x).
Proof.
  intros g ask env n P v0 ints s GB D O N H AV F.
  destruct (solver_contents g ask env n P v0 s GB D O H) as ((NC & OB & _ & W) & _). fold F in NC, OB, W.
  split; [exact NC|]. split; [|intro x; unfold lp_value; rewrite NC, OB; reflexivity]. intro x. rewrite NC. split; intros [X IN]; (split; [|exact IN]).
  - apply W in X. exact (proj1 X).
  - apply (main_keeps_point g ask env n P v0 ints x s GB D O N H X IN (AV x X IN)).
Qed.
Print Assumptions main_same_problem.

(** When a round found an optimal integer solution of its problem, the bound with all cuts is its value. *)
Lemma gen_frame g ask env n P v0 s : (-1 <= g <= 1)%Z -> (forall k i, decisive (lists env) P (ask k i)) -> lp_opt P v0 ->
  main_rounds g ask env n 0 (main_start P v0) = Some s ->
  Forall (fun r => ncols (fst r) = ncols P /\ obj (fst r) = obj P /\ incl (snd r) (s_gmics s ++ s_vpcs s)) (s_gen s).
Proof.
  intros GB D O H.
  destruct (main_ind (fun _ s => contents (lists env) g P (s_gmics s) (s_vpcs s) s /\
      Forall (fun r => ncols (fst r) = ncols P /\ obj (fst r) = obj P /\ incl (snd r) (s_gmics s ++ s_vpcs s)) (s_gen s)) g ask env)
    with (fuel := n) (k := 0%nat) (s := main_start P v0) (s' := s) as (_ & _ & _ & V); [| |exact H|exact V].
  2:{ split; [apply contents_start, O|constructor]. }
  intros k a a1 a2 (C & V) E1 E2.
  split; [exact (contents_step (lists env) g (ask k) (env k) P _ a a1 a2 GB (lists_g env k) (lists_v env k) (D k) C E1 E2)|].
  destruct (gomory_ok (lists env) g (ask k) (env k) a a1 P GB (lists_g env k) (D k) C E1) as [C1 EV].
  assert (X : s_gen a2 = s_gen (vpc_part (env k) a1) /\ s_gmics a2 = s_gmics (vpc_part (env k) a1) /\ s_vpcs a2 = s_vpcs (vpc_part (env k) a1)).
  { unfold apply_part in E2. destruct (if is_nil _ then _ else _) as [[[vp so] al]|]; [|discriminate]. injection E2 as <-. repeat split. }
  destruct X as (-> & -> & ->). destruct (vpc_frame (env k) a1) as (_ & _ & _ & _ & -> & -> & _).
  assert (MONO : forall G V G' V' l, incl G G' -> incl V V' -> Forall (fun r : lp * list cut => ncols (fst r) = ncols P /\ obj (fst r) = obj P /\ incl (snd r) (G ++ V)) l ->
     Forall (fun r : lp * list cut => ncols (fst r) = ncols P /\ obj (fst r) = obj P /\ incl (snd r) (G' ++ V')) l).
  { intros G V0 G' V' l I1 I2. apply Forall_impl. intros r (A & B & CC). split; [exact A|]. split; [exact B|]. intros c Hc. apply CC in Hc. apply in_app_iff in Hc. apply in_app_iff. destruct Hc; [left; apply I1|right; apply I2]; assumption. }
  assert (V1 : Forall (fun r => ncols (fst r) = ncols P /\ obj (fst r) = obj P /\ incl (snd r) (s_gmics a1 ++ s_vpcs a1)) (s_gen a1)).
  { destruct C as ((NC & OB & _) & _). unfold gomory_part in E1. destruct ((g =? -1)%Z || (g =? 1)%Z).
    - destruct (m_apply (ask k 0%nat) (s_gm a) _) as [gm|]; [|discriminate]. destruct (if (0 <? g)%Z then _ else _) as [so|]; [|discriminate].
      destruct (m_apply (ask k 2%nat) (s_all a) _) as [al|]; [|discriminate]. injection E1 as <-. cbn [s_gmics s_vpcs s_gen].
      apply Forall_app. split; [refine (MONO _ _ _ _ _ _ _ V); [apply incl_appl, incl_refl|apply incl_refl]|]. constructor; [|constructor]. cbn [fst snd].
      split; [exact NC|]. split; [exact OB|]. apply incl_appl, incl_appr, incl_refl.
    - injection E1 as <-. exact V. }
  destruct C1 as ((NC & OB & _) & _). unfold vpc_part, round_vpcs. destruct (re_should (env k)).
  - cbn [s_gen]. apply Forall_app. split; [refine (MONO _ _ _ _ _ _ _ V1); [apply incl_refl|apply incl_appl, incl_refl]|]. constructor; [|constructor]. cbn [fst snd].
    split; [exact NC|]. split; [exact OB|]. apply incl_appr, incl_appr, incl_refl.
  - rewrite app_nil_r. exact V1.
Qed.
Theorem optimum_closes_gap : forall g ask env n P v0 ints x s EPS R cs offset v, (-1 <= g <= 1)%Z -> (forall k i, decisive (lists env) P (ask k i)) -> lp_opt P v0 -> (0 < n)%nat ->
  main_rounds g ask env n 0 (main_start P v0) = Some s -> feasible P x -> integral ints (ncols P) x -> Forall (round_calls ints env x) (s_gen s) ->
  In (R, cs) (s_gen s) -> In (objective_cut EPS R offset v) cs ->
  (forall i, (i < ncols R)%nat -> ~ Qabs (obj R i - EPS) < EPS7) -> lp_value P x - offset == v ->
  exists b, s_ball s = Some b /\ b == lp_value P x.
Proof.
  intros g ask env n P v0 ints x s EPS R cs offset v GB D O N H F IN AV IR IC W XV.
  destruct (main_keeps_point g ask env n P v0 ints x s GB D O N H F IN AV) as (_ & _ & _ & _ & (b & Eb & Lb) & _). exists b. split; [exact Eb|].
  destruct (rounds_point g ask env n P v0 ints x s GB D O H F IN AV) as (k' & _ & C & RP & V).
  pose proof (gen_frame g ask env n P v0 s GB D O H) as GF. rewrite Forall_forall in GF. destruct (GF _ IR) as (NR & OR & INC). cbn [fst snd] in NR, OR, INC. apply INC in IC.
  destruct (reported_bounds g ask env n P v0 s GB D O N H) as (_ & _ & _ & _ & KP & _). destruct RP as (R0 & _ & _ & _ & R4). destruct (R4 ltac:(lia)) as (_ & B2 & _).
  destruct (contents_reported _ g P _ _ s C) as (_ & _ & P3 & (w & Y & [(y & FY & VY) _])). rewrite B2 in Eb. unfold m_obj in Eb. rewrite Y in Eb. injection Eb as ->.
  apply (with_cuts_point _ _ _ y P3) in FY. destruct FY as [_ FY]. rewrite Forall_forall in FY. specialize (FY _ IC).
  apply (objective_cut_exact EPS R offset v W) in FY. destruct P3 as (NC & OB & _). unfold lp_value in *. rewrite NR, OR in FY. rewrite NC, OB in VY. rewrite VY in FY. lra.
Qed.
Print Assumptions optimum_closes_gap.

(** ** A run of two rounds on min x0 + 2 x1, 2x0+2x1 >= 5 on [0,4]x[0,3]: the first call works on splits and returns
    2x0 + 4x1 >= 6, the second finds that the tree is complete, with an optimal solution of value 3. *)
Definition oCut : cut := {| crow := [(0%nat, 1); (1%nat, 2)]; crhs := 3 |}.
Definition wenv (k : nat) : roundenv :=
  {| re_gmics := []; re_should := true; re_vpcs := match k with O => [sCut] | S O => [oCut] | _ => [] end;
     re_num := 1; re_disjs := [(3, 3)]; re_timeup := false; re_found := match k with S O => true | _ => false end |}.
Definition wask : solver_oracle := fun _ R => LOptimal (if Nat.eqb (nrows R) 1 then 5 # 2 else 3).
Definition wask2 : nat -> nat -> solver_oracle := fun _ _ => wask.
Lemma sCut_means x : satisfies_cut sCut x <-> 3 <= x 0%nat + 2 * x 1%nat.
Proof.
  assert (E : sCut = {| crow := [(0%nat, 2); (1%nat, 4)]; crhs := 6 |}) by (vm_compute; reflexivity). rewrite E. unfold satisfies_cut. cbn [crow crhs].
  rewrite !pdot_cons, pdot_nil. cbn [fst snd]. split; intro; lra.
Qed.
Lemma oCut_means x : satisfies_cut oCut x <-> 3 <= x 0%nat + 2 * x 1%nat.
Proof. unfold satisfies_cut, oCut. cbn [crow crhs]. rewrite !pdot_cons, pdot_nil. cbn [fst snd]. split; intro; lra. Qed.
Lemma wlists l : lists wenv l -> Forall (fun c => c = sCut \/ c = oCut) l.
Proof. intros ([|[|k]] & [->| ->]); cbv beta iota delta [wenv re_gmics round_vpcs re_should re_vpcs]; repeat (apply Forall_cons; [auto|]); apply Forall_nil. Qed.
Lemma wgrown R : grown (lists wenv) vP R -> exists l, with_cuts vP l R /\ Forall (fun c => c = sCut \/ c = oCut) l.
Proof.
  induction 1 as [|R l G (l0 & W & FA) L]; [exists []; split; [apply with_cuts_nil|constructor]|].
  exists (l0 ++ l). split; [exact (with_cuts_trans _ _ _ _ _ W (add_rows_cuts R l))|]. apply Forall_app. split; [exact FA|exact (wlists l L)].
Qed.
Lemma vP_value x : lp_value vP x == x 0%nat + 2 * x 1%nat.
Proof. unfold lp_value. cbn [vP ncols obj seq]. rewrite !Qsumf_cons, Qsumf_nil. cbn [Nat.eqb]. ring. Qed.
Lemma wdecisive : decisive (lists wenv) vP wask.
Proof.
  intros n R G.
  split; [|left; eexists; reflexivity]. destruct (wgrown R G) as (l & (NC & OB & NR & W) & FA). unfold wask, truthful.
  assert (VAL : forall x, lp_value R x == x 0%nat + 2 * x 1%nat) by (intro x; rewrite <- vP_value; unfold lp_value; rewrite NC, OB; reflexivity).
  assert (ST : forall x, 3 <= x 0%nat + 2 * x 1%nat -> Forall (fun c => satisfies_cut c x) l).
  { intros x Hx. rewrite Forall_forall in *. intros c Hc. destruct (FA c Hc) as [-> | ->]; [apply sCut_means|apply oCut_means]; exact Hx. }
  cbn [vP nrows] in NR. destruct l as [|c l].
  - cbn [length] in NR. rewrite NR. cbn [Nat.add Nat.eqb]. split.
    + exists (fun j => if Nat.eqb j 0 then 5 # 2 else 0). split; [|rewrite VAL; reflexivity]. apply W. split; [apply vP_feasible; cbn; lra|constructor].
    + intros y FY. rewrite VAL. apply W in FY. destruct FY as [FY _]. apply vP_feasible in FY. lra.
  - cbn [length] in NR. replace (Nat.eqb (nrows R) 1) with false by (symmetry; apply Nat.eqb_neq; lia). split.
    + exists (fun j => if Nat.eqb j 0 then 3 else 0). split; [|rewrite VAL; reflexivity]. apply W. split; [apply vP_feasible; cbn; lra|apply ST; cbn; lra].
    + intros y FY. rewrite VAL. apply W in FY. destruct FY as [_ FY]. inversion_clear FY as [|? ? SC _]. inversion_clear FA as [|? ? [-> | ->] _]; [apply sCut_means|apply oCut_means]; exact SC.
Qed.
Definition oOracle : callans :=
  {| ca_time0 := false; ca_nfrac := 1; ca_nfrac_default := 1; ca_optimal := true; ca_disj := D_OPTIMAL_SOLUTION_FOUND;
     ca_objcut := oCut; ca_objcut_disj := 0; ca_root := []; ca_root_ok := true;
     ca_root_fails := []; ca_setsize := 0; ca_run := fun _ => {| dr_time0 := false; dr_setup_fails := []; dr_time1 := false; dr_best := 3; dr_worst := 3; dr_lpopt := 3;
     dr_prlp := SUCCESS_EXIT; dr_prlp_fails := []; dr_user := dr_user exrun; dr_target := []; dr_time2 := false; dr_solvetime2 := 0 |} |}.
Definition R1 : lp := add_rows vP (map cut_row [sCut]).
Example main_example : let ints := fun _ : nat => true in
  lp_opt vP (5 # 2) /\ (forall k i, decisive (lists wenv) vP (wask2 k i)) /\
  exists s, main_rounds 0 wask2 wenv 5 0 (main_start vP (5 # 2)) = Some s /\
    s_gen s = [(vP, [sCut]); (R1, [oCut])] /\ oCut = objective_cut EPS7 R1 0 3 /\ length (s_rounds s) = 2%nat /\
    (forall x, feasible vP x -> integral ints 2 x -> Forall (round_calls ints wenv x) (s_gen s)) /\
    exists b, s_ball s = Some b /\ b == 3.
Proof.
  cbv zeta. assert (DEC : forall k i, decisive (lists wenv) vP (wask2 k i)) by (intros k i; exact wdecisive).
  split; [exact (proj1 (DEC 0%nat 0%nat 0%nat vP (grown_here _ _)))|]. split; [exact DEC|].
  assert (EX : exists s, main_rounds 0 wask2 wenv 5 0 (main_start vP (5 # 2)) = Some s /\ s_gen s = [(vP, [sCut]); (R1, [oCut])] /\
     length (s_rounds s) = 2%nat /\ s_ball s = Some 3).
  { eexists. split; [cbv -[sCut add_rows vP Qltb Qabs isInfinity DBL_MAX EPS7]; cbn [add_rows vP nrows]; reflexivity|]. cbn. auto. }
  destruct EX as (s & H & SG & L & BA). exists s. split; [exact H|]. split; [exact SG|]. split; [vm_compute; reflexivity|]. split; [exact L|]. split; [|exists 3; split; [exact BA|reflexivity]].
  intros x F IN. rewrite SG. constructor; [|constructor; [|constructor]]; right.
  - exists 0%nat. split; [reflexivity|].
    assert (G : exists v' c, generateCuts exE sV [] sOracle = Some (v', [c]) /\ ec c = sCut).
    { eexists. eexists. split; [vm_compute; reflexivity|vm_compute; reflexivity]. }
    destruct G as (v' & c & G & EC). exists exE, sV, sOracle, v', [c]. split; [exact G|]. split; [cbn [map snd]; rewrite EC; reflexivity|].
    split; [intros k []|]. split; [|discriminate]. intros j a [<-|[]] _ _. exists sD. split; [apply built_split, sD_split|]. constructor. apply sCut_produced; reflexivity.
  - exists 1%nat. split; [reflexivity|].
    assert (G : exists v' c, generateCuts exE exv [] oOracle = Some (v', [c]) /\ ec c = oCut).
    { eexists. eexists. split; [vm_compute; reflexivity|vm_compute; reflexivity]. }
    destruct G as (v' & c & G & EC). exists exE, exv, oOracle, v', [c]. split; [exact G|]. split; [cbn [map snd]; rewrite EC; reflexivity|].
    split; [intros k []|]. split; [intros j a []|]. intros _. exists EPS7, 0, 3. split; [vm_compute; reflexivity|]. split.
    + intros [|[|i]] Hi; [vm_compute; discriminate|vm_compute; discriminate|]. cbn [fst R1 add_rows ncols vP] in Hi. lia.
    + assert (E : lp_value R1 x == x 0%nat + 2 * x 1%nat) by (rewrite <- vP_value; unfold lp_value, R1; cbn [add_rows ncols obj]; reflexivity).
      cbn [fst]. rewrite E. pose proof (IN 0%nat ltac:(lia) eq_refl) as (z0 & Z0). pose proof (IN 1%nat ltac:(lia) eq_refl) as (z1 & Z1).
      apply vP_feasible in F. destruct F as (F0 & F1 & F2). rewrite Z0, Z1 in *.
      assert (Y : inject_Z 5 <= inject_Z (2 * z0 + 2 * z1)) by (rewrite inject_Z_plus, !inject_Z_mult; change (inject_Z 5) with 5; change (inject_Z 2) with 2; exact F2).
      assert (Y1 : inject_Z 0 <= inject_Z z1) by (change (inject_Z 0) with 0; apply F1). rewrite <- Zle_Qle in Y, Y1.
      assert (X : inject_Z 3 <= inject_Z (z0 + 2 * z1)) by (rewrite <- Zle_Qle; lia). rewrite inject_Z_plus, inject_Z_mult in X. change (inject_Z 3) with 3 in X. change (inject_Z 2) with 2 in X. lra.
Qed.
