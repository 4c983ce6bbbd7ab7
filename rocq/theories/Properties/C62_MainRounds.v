(** C62: rounds of cuts in the main program — which solver holds which cuts, and the bounds reported. *)
From Coq Require Import Permutation Sorting.Sorted.
From Verif Require Import Prelude Model.LP Model.Tolerance Model.SolverHelper Model.MainRounds Spec.LPSpec Spec.SolverSpec Spec.LibrarySpec
  Proofs.ToleranceP Properties.C54_ApplyCuts Properties.C61_Library.
#[local] Open Scope Q_scope.

(** The problems that can arise from [P] by adding lists of cuts in [C]. *)
Inductive grown (C : list cut -> Prop) (P : lp) : lp -> Prop :=
| grown_here : grown C P P
| grown_more R l : grown C P R -> C l -> grown C P (add_rows R (map cut_row l)).
(** On those the LP solver answers truthfully and is not stopped by a limit. *)
Definition decisive (C : list cut -> Prop) (P : lp) (ask : solver_oracle) : Prop :=
  forall n R, grown C P R -> truthful R (ask n R) /\ ((exists v, ask n R = LOptimal v) \/ ask n R = LInfeasible).
(** The lists of cuts generated in the rounds. *)
Definition lists (env : nat -> roundenv) (l : list cut) : Prop := exists k, l = re_gmics (env k) \/ l = round_vpcs (env k).
(** It is optimal, and the value it reports is the optimal value of its problem. *)
Definition solved (s : msolver) : Prop := exists v, m_now s = LOptimal v /\ lp_opt (m_lp s) v.

Lemma with_cuts_perm P l l' Q : Permutation l l' -> with_cuts P l Q -> with_cuts P l' Q.
Proof.
  intros PM (A & B & C & D). split; [exact A|]. split; [exact B|]. split; [rewrite C, (Permutation_length PM); reflexivity|].
  intro x. rewrite D. split; intros [F K]; (split; [exact F|]); rewrite Forall_forall in *; intros c Hc; apply K.
  - apply Permutation_in with (1 := Permutation_sym PM), Hc.
  - apply Permutation_in with (1 := PM), Hc.
Qed.
Lemma with_cuts_trans P l Q l' R : with_cuts P l Q -> with_cuts Q l' R -> with_cuts P (l ++ l') R.
Proof.
  intros (A & B & C & D) (A' & B' & C' & D'). split; [congruence|]. split; [congruence|]. split; [rewrite C', C, app_length; lia|].
  intro x. rewrite D', D, Forall_app. tauto.
Qed.
Lemma with_cuts_nil P : with_cuts P [] P.
Proof. split; [reflexivity|]. split; [reflexivity|]. split; [cbn [length]; lia|]. intro x. split; [intro H; split; [exact H|constructor]|intros [H _]; exact H]. Qed.
Definition ready (C : list cut -> Prop) (P : lp) (s : msolver) : Prop := grown C P (m_lp s) /\ solved s.
Lemma m_apply_ok C P ask s cs s' : decisive C P ask -> C cs -> ready C P s -> m_apply ask s cs = Some s' ->
  with_cuts (m_lp s) cs (m_lp s') /\ ready C P s'.
Proof.
  intros D CC (GR & v0 & N & O) H. unfold m_apply, applyCutsCustom in H. rewrite N in H. cbv zeta iota in H.
  assert (CH : (if Nat.eqb (length cs) 0 then Some [] else if Nat.eqb 0 0 && Nat.eqb (length cs) (length cs) then Some cs else range_of cs 0 (length cs)) = Some cs).
  { destruct cs as [|c r]; [reflexivity|]. cbn [length Nat.eqb andb]. rewrite Nat.eqb_refl. reflexivity. }
  rewrite CH in H. clear CH. set (R := add_rows (m_lp s) (map cut_row cs)) in *.
  assert (GR' : grown C P R) by (apply grown_more; assumption).
  assert (W : with_cuts (m_lp s) cs R) by apply add_rows_cuts.
  destruct (D 1%nat R GR') as [T1 [(w & Y1)|Y1]]; rewrite Y1 in H, T1; [|discriminate].
  destruct (Qltb w _).
  - destruct (D 2%nat R GR') as [T2 [(w2 & Y2)|Y2]]; rewrite Y2 in H, T2.
    + injection H as <-. cbn [m_lp]. split; [exact W|]. split; [exact GR'|]. exists w2. split; [reflexivity|exact T2].
    + exfalso. destruct T1 as [(x & FX & _) _]. exact (T2 x FX).
  - injection H as <-. cbn [m_lp]. split; [exact W|]. split; [exact GR'|]. exists w. split; [reflexivity|exact T1].
Qed.

(** What the four solvers hold, in terms of the cuts generated so far: [G] GMICs, [V] VPCs. *)
Definition solver_list (g : Z) (G V : list cut) : list cut := if (0 <? g)%Z then G ++ V else V.
Definition contents (C : list cut -> Prop) (g : Z) (P : lp) (G V : list cut) (s : mainst) : Prop :=
  with_cuts P (solver_list g G V) (m_lp (s_solver s)) /\ ready C P (s_solver s) /\
  (g <> 0%Z -> with_cuts P G (m_lp (s_gm s)) /\ ready C P (s_gm s) /\ with_cuts P V (m_lp (s_vp s)) /\ ready C P (s_vp s) /\
               with_cuts P (G ++ V) (m_lp (s_all s)) /\ ready C P (s_all s)) /\
  (g = 0%Z -> G = []).
Lemma shuffle {A} (a b c : list A) : Permutation ((a ++ b) ++ c) ((a ++ c) ++ b).
Proof. rewrite <- !app_assoc. apply Permutation_app_head, Permutation_app_comm. Qed.

Lemma lists_g env k : lists env (re_gmics (env k)). Proof. exists k. left. reflexivity. Qed.
Lemma lists_v env k : lists env (round_vpcs (env k)). Proof. exists k. right. reflexivity. Qed.

Lemma gomory_ok (K : list cut -> Prop) g ask e s s1 P : (-1 <= g <= 1)%Z -> K (re_gmics e) -> (forall i, decisive K P (ask i)) -> contents K g P (s_gmics s) (s_vpcs s) s -> gomory_part g ask e s = Some s1 ->
  contents K g P (s_gmics s1) (s_vpcs s) s1 /\ s_vpcs s1 = s_vpcs s.
Proof.
  intros GB KG D (C1 & C2 & C3 & C4) H. unfold gomory_part in H. destruct ((g =? -1)%Z || (g =? 1)%Z) eqn:GG.
  2:{ injection H as <-. split; [|reflexivity]. split; [exact C1|]. split; [exact C2|]. split; [exact C3|exact C4]. }
  assert (NZ : g <> 0%Z) by (intros ->; discriminate). destruct (C3 NZ) as (A1 & A2 & A3 & A4 & A5 & A6).
  destruct (m_apply (ask 0%nat) (s_gm s) (re_gmics e)) as [gm|] eqn:E1; [|discriminate].
  destruct (if (0 <? g)%Z then _ else _) as [so|] eqn:E2; [|discriminate].
  destruct (m_apply (ask 2%nat) (s_all s) (re_gmics e)) as [al|] eqn:E3; [|discriminate]. injection H as <-. cbn [s_gmics s_vpcs].
  split; [|reflexivity]. unfold contents. cbn [s_solver s_gm s_vp s_all].
  destruct (m_apply_ok K P _ _ _ _ (D 0%nat) KG A2 E1) as (W1 & S1). destruct (m_apply_ok K P _ _ _ _ (D 2%nat) KG A6 E3) as (W3 & S3).
  assert (SO : with_cuts P (solver_list g (s_gmics s ++ re_gmics e) (s_vpcs s)) (m_lp so) /\ ready K P so).
  { unfold solver_list in *. destruct (0 <? g)%Z.
    - destruct (m_apply_ok K P _ _ _ _ (D 1%nat) KG C2 E2) as (W2 & S2). split; [|exact S2].
      eapply with_cuts_perm; [|exact (with_cuts_trans _ _ _ _ _ C1 W2)]. apply shuffle.
    - injection E2 as <-. split; assumption. }
  split; [exact (proj1 SO)|]. split; [exact (proj2 SO)|]. split; [|intro Z0; elim NZ; exact Z0]. intros _.
  split; [exact (with_cuts_trans _ _ _ _ _ A1 W1)|]. split; [exact S1|]. split; [exact A3|]. split; [exact A4|]. split; [|exact S3].
  eapply with_cuts_perm; [|exact (with_cuts_trans _ _ _ _ _ A5 W3)]. apply shuffle.
Qed.
Lemma vpc_frame e s : let s1 := vpc_part e s in s_solver s1 = s_solver s /\ s_gm s1 = s_gm s /\ s_vp s1 = s_vp s /\ s_all s1 = s_all s /\ s_gmics s1 = s_gmics s /\
  s_vpcs s1 = s_vpcs s ++ round_vpcs e /\ s_rounds s1 = s_rounds s /\ s_bgmic s1 = s_bgmic s /\ s_ngmic s1 = s_ngmic s.
Proof. unfold vpc_part, round_vpcs. destruct (re_should e); cbn; repeat split. rewrite app_nil_r. reflexivity. Qed.
Lemma apply_ok (K : list cut -> Prop) g ask e o0 s s2 P V : (-1 <= g <= 1)%Z -> K (round_vpcs e) -> (forall i, decisive K P (ask i)) -> contents K g P (s_gmics s) V s -> s_vpcs s = V ++ round_vpcs e ->
  apply_part g ask e o0 s = Some s2 -> contents K g P (s_gmics s2) (s_vpcs s2) s2 /\ s_gmics s2 = s_gmics s /\ s_vpcs s2 = s_vpcs s /\ s_gm s2 = s_gm s.
Proof.
  intros GB KV D (C1 & C2 & C3 & C4) EV H. unfold apply_part in H.
  destruct (if is_nil (round_vpcs e) then _ else _) as [[[vp so] al]|] eqn:E; [|discriminate]. cbv zeta in H. injection H as <-. cbn [s_gmics s_vpcs s_gm].
  split; [|split; [reflexivity|split; reflexivity]]. unfold contents. cbn [s_solver s_gm s_vp s_all]. rewrite EV.
  assert (SL : forall G, Permutation (solver_list g G V ++ round_vpcs e) (solver_list g G (V ++ round_vpcs e))).
  { intro G. unfold solver_list. destruct (0 <? g)%Z; [rewrite app_assoc|]; apply Permutation_refl. }
  destruct (is_nil (round_vpcs e)) eqn:NI.
  { injection E as <- <- <-. destruct (round_vpcs e); [|discriminate]. rewrite app_nil_r. split; [exact C1|]. split; [exact C2|]. split; [exact C3|exact C4]. }
  destruct (Z.eqb_spec g 0) as [G0|NZ]; cbn [negb] in E.
  - destruct (m_apply (ask 4%nat) (s_solver s) (round_vpcs e)) as [so'|] eqn:E4; [|discriminate]. injection E as <- <- <-.
    destruct (m_apply_ok K P _ _ _ _ (D 4%nat) KV C2 E4) as (W & S).
    split; [eapply with_cuts_perm; [apply SL|exact (with_cuts_trans _ _ _ _ _ C1 W)]|]. split; [exact S|]. split; [intro X; elim X; exact G0|exact C4].
  - destruct (C3 NZ) as (A1 & A2 & A3 & A4 & A5 & A6).
    destruct (m_apply (ask 3%nat) (s_vp s) (round_vpcs e)) as [vp'|] eqn:E3; [|discriminate].
    destruct (m_apply (ask 4%nat) (s_solver s) (round_vpcs e)) as [so'|] eqn:E4; [|discriminate].
    destruct (m_apply (ask 5%nat) (s_all s) (round_vpcs e)) as [al'|] eqn:E5; [|discriminate]. injection E as <- <- <-.
    destruct (m_apply_ok K P _ _ _ _ (D 3%nat) KV A4 E3) as (W3 & S3). destruct (m_apply_ok K P _ _ _ _ (D 4%nat) KV C2 E4) as (W4 & S4). destruct (m_apply_ok K P _ _ _ _ (D 5%nat) KV A6 E5) as (W5 & S5).
    split; [eapply with_cuts_perm; [apply SL|exact (with_cuts_trans _ _ _ _ _ C1 W4)]|]. split; [exact S4|]. split; [|exact C4]. intros _.
    split; [exact A1|]. split; [exact A2|]. split; [exact (with_cuts_trans _ _ _ _ _ A3 W3)|]. split; [exact S3|]. split; [|exact S5].
    rewrite app_assoc. exact (with_cuts_trans _ _ _ _ _ A5 W5).
Qed.

(** Induction over the rounds. *)
Lemma main_ind (I : nat -> mainst -> Prop) g ask env :
  (forall k s s1 s2, I k s -> gomory_part g (ask k) (env k) s = Some s1 -> apply_part g (ask k) (env k) (m_obj (s_solver s)) (vpc_part (env k) s1) = Some s2 -> I (S k) s2) ->
  forall fuel k s s', I k s -> main_rounds g ask env fuel k s = Some s' -> exists k', (k <= k' <= k + fuel)%nat /\ I k' s'.
Proof.
  intros ST. induction fuel as [|f IH]; intros k s s' K H; cbn [main_rounds] in H; [injection H as <-; exists k; split; [lia|exact K]|].
  destruct (gomory_part g (ask k) (env k) s) as [s1|] eqn:E1; [|discriminate].
  destruct (apply_part g (ask k) (env k) (m_obj (s_solver s)) (vpc_part (env k) s1)) as [s2|] eqn:E2; [|discriminate].
  pose proof (ST k s s1 s2 K E1 E2) as K2. destruct (stops g (env k) s2); [injection H as <-; exists (S k); split; [lia|exact K2]|].
  destruct (IH (S k) s2 s' K2 H) as (k' & B & K'). exists k'. split; [lia|exact K'].
Qed.
Lemma contents_step (K : list cut -> Prop) g ask e P o0 s s1 s2 : (-1 <= g <= 1)%Z -> K (re_gmics e) -> K (round_vpcs e) -> (forall i, decisive K P (ask i)) -> contents K g P (s_gmics s) (s_vpcs s) s ->
  gomory_part g ask e s = Some s1 -> apply_part g ask e o0 (vpc_part e s1) = Some s2 -> contents K g P (s_gmics s2) (s_vpcs s2) s2.
Proof.
  intros GB KG KV D C E1 E2. destruct (gomory_ok K g ask e s s1 P GB KG D C E1) as [C1 EV].
  destruct (vpc_frame e s1) as (F1 & F2 & F3 & F4 & F5 & F6 & _).
  refine (proj1 (apply_ok K g ask e o0 (vpc_part e s1) s2 P (s_vpcs s) GB KV D _ _ E2)); [|rewrite F6, EV; reflexivity].
  unfold contents in *. rewrite F1, F2, F3, F4, F5. exact C1.
Qed.
Lemma contents_start (K : list cut -> Prop) g P v0 : lp_opt P v0 -> contents K g P [] [] (main_start P v0).
Proof.
  intro O. assert (S : ready K P {| m_lp := P; m_now := LOptimal v0 |}) by (split; [apply grown_here|]; exists v0; split; [reflexivity|exact O]).
  unfold contents, solver_list, main_start. cbn [s_solver s_gm s_vp s_all m_lp app]. split; [destruct (0 <? g)%Z; apply with_cuts_nil|]. split; [exact S|].
  split; [|reflexivity]. intros _. split; [apply with_cuts_nil|]. split; [exact S|]. split; [apply with_cuts_nil|]. split; [exact S|]. split; [apply with_cuts_nil|exact S].
Qed.

(** Which cuts are where, after any number of rounds: the problem cuts are generated from (and branch-and-bound
    cuts are counted in) holds the VPCs, with the GMICs exactly when GOMORY = 1; the three other solvers hold the
    GMICs only, the VPCs only, and all cuts; each of them is solved to optimality.  The solvers handed to the
    analysis of strength are the ones for GMICs, VPCs and all cuts. *)
Theorem solver_contents : forall g ask env n P v0 s, (-1 <= g <= 1)%Z -> (forall k i, decisive (lists env) P (ask k i)) -> lp_opt P v0 ->
  main_rounds g ask env n 0 (main_start P v0) = Some s ->
  with_cuts P (if (0 <? g)%Z then s_gmics s ++ s_vpcs s else s_vpcs s) (m_lp (s_solver s)) /\
  (g = 0%Z -> s_gmics s = []) /\
  let '(gm, vp, al) := analysed g s in
  match gm with None => g = 0%Z | Some gm => g <> 0%Z /\ with_cuts P (s_gmics s) (m_lp gm) /\ solved gm end /\
  with_cuts P (s_vpcs s) (m_lp vp) /\ solved vp /\ with_cuts P (s_gmics s ++ s_vpcs s) (m_lp al) /\ solved al.
Proof.
  intros g ask env n P v0 s GB D O H.
  destruct (main_ind (fun _ s => contents (lists env) g P (s_gmics s) (s_vpcs s) s) g ask env) with (fuel := n) (k := 0%nat) (s := main_start P v0) (s' := s) as (k' & _ & C); [| |exact H|].
  { intros k a a1 a2 Hk E1 E2. exact (contents_step (lists env) g (ask k) (env k) P _ a a1 a2 GB (lists_g env k) (lists_v env k) (D k) Hk E1 E2). }
  { apply contents_start, O. }
  destruct C as (C1 & (_ & C2) & C3 & C4). split; [exact C1|]. split; [exact C4|]. unfold analysed.
  destruct (Z.eqb_spec g 0) as [G0|NZ].
  - rewrite G0. cbn [Z.leb Z.compare]. rewrite (C4 G0) in *. rewrite G0 in C1. cbn [solver_list Z.ltb Z.compare] in C1.
    split; [reflexivity|]. split; [exact C1|]. split; [exact C2|]. split; [exact C1|exact C2].
  - destruct (C3 NZ) as (A1 & (_ & A2) & A3 & (_ & A4) & A5 & (_ & A6)). split; [split; [exact NZ|]; split; assumption|]. unfold solver_list in C1.
    destruct (Z.leb_spec g 0) as [LE|GT].
    + destruct (Z.ltb_spec 0 g); [lia|]. destruct (Z.leb_spec 0 g); [lia|]. split; [exact C1|]. split; [exact C2|]. split; [exact A5|exact A6].
    + destruct (Z.ltb_spec 0 g); [|lia]. destruct (Z.leb_spec 0 g); [|lia]. split; [exact A3|]. split; [exact A4|]. split; [exact C1|exact C2].
Qed.
Print Assumptions solver_contents.

(** ** Validity. *)
Lemma with_cuts_integer P ints l R : with_cuts P l R -> valid_for P ints l -> forall x, feasible P x -> integral ints (ncols P) x -> feasible R x.
Proof. intros (_ & _ & _ & D) V x F IN. apply D. split; [exact F|]. apply Forall_forall. intros c Hc. exact (V c x Hc F IN). Qed.
Lemma generated_valid P ints l R cs : with_cuts P l R -> valid_for P ints l -> valid_for R ints cs -> valid_for P ints cs.
Proof.
  intros W V VR c x Hc F IN. apply (VR c x Hc); [exact (with_cuts_integer P ints l R W V x F IN)|]. destruct W as (-> & _). exact IN.
Qed.
Lemma valid_app P ints a b : valid_for P ints (a ++ b) <-> valid_for P ints a /\ valid_for P ints b.
Proof.
  unfold valid_for. split.
  - intro H. split; intros c x Hc; apply H, in_app_iff; [left|right]; exact Hc.
  - intros [A B] c x Hc. apply in_app_iff in Hc. destruct Hc; [apply A|apply B]; assumption.
Qed.
Definition all_generated_valid (ints : nat -> bool) (s : mainst) : Prop := Forall (fun r => valid_for (fst r) ints (snd r)) (s_gen s).
(** If every list of cuts was valid for the problem its generator was given, all cuts are valid for the original
    problem, and none of the solvers has lost an integer-feasible point. *)
Theorem rounds_valid : forall g ask env n P v0 ints s, (-1 <= g <= 1)%Z -> (forall k i, decisive (lists env) P (ask k i)) -> lp_opt P v0 ->
  main_rounds g ask env n 0 (main_start P v0) = Some s -> all_generated_valid ints s ->
  valid_for P ints (s_gmics s ++ s_vpcs s) /\
  forall x, feasible P x -> integral ints (ncols P) x ->
    feasible (m_lp (s_solver s)) x /\ (g <> 0%Z -> feasible (m_lp (s_gm s)) x /\ feasible (m_lp (s_vp s)) x /\ feasible (m_lp (s_all s)) x).
Proof.
  intros g ask env n P v0 ints s GB D O H AV.
  destruct (main_ind (fun _ s => contents (lists env) g P (s_gmics s) (s_vpcs s) s /\ (all_generated_valid ints s -> valid_for P ints (s_gmics s ++ s_vpcs s))) g ask env)
    with (fuel := n) (k := 0%nat) (s := main_start P v0) (s' := s) as (k' & _ & C & V); [| |exact H|].
  { intros k a a1 a2 [C V] E1 E2. split; [exact (contents_step (lists env) g (ask k) (env k) P _ a a1 a2 GB (lists_g env k) (lists_v env k) (D k) C E1 E2)|].
    intro AV2. destruct (gomory_ok (lists env) g (ask k) (env k) a a1 P GB (lists_g env k) (D k) C E1) as [C1 EV].
    assert (X : s_gen a2 = s_gen (vpc_part (env k) a1) /\ s_gmics a2 = s_gmics (vpc_part (env k) a1) /\ s_vpcs a2 = s_vpcs (vpc_part (env k) a1)).
    { unfold apply_part in E2. destruct (if is_nil _ then _ else _) as [[[vp so] al]|]; [|discriminate]. injection E2 as <-. repeat split. }
    destruct X as (X1 & X2 & X3). rewrite X2, X3. destruct (vpc_frame (env k) a1) as (_ & _ & _ & _ & F5 & F6 & _). rewrite F5, F6.
    unfold all_generated_valid in AV2. rewrite X1 in AV2.
    assert (AV1 : all_generated_valid ints a1 /\ (valid_for P ints (solver_list g (s_gmics a1) (s_vpcs a)) -> valid_for P ints (round_vpcs (env k)))).
    { destruct C1 as (W & _). unfold vpc_part, round_vpcs in *. destruct (re_should (env k)); [|split; [exact AV2|intros _ c x []]].
      cbn [s_gen] in AV2. apply Forall_app in AV2. destruct AV2 as [AV2 AV3]. split; [exact AV2|]. inversion_clear AV3 as [|? ? VV _]. cbn [fst snd] in VV.
      intro VL. exact (generated_valid P ints _ _ _ W VL VV). }
    destruct AV1 as [AV1 VN].
    assert (V1 : valid_for P ints (s_gmics a1) /\ valid_for P ints (s_vpcs a)).
    { destruct C as (W & _). unfold gomory_part in E1. destruct ((g =? -1)%Z || (g =? 1)%Z).
      - destruct (m_apply (ask k 0%nat) (s_gm a) _) as [gm|]; [|discriminate]. destruct (if (0 <? g)%Z then _ else _) as [so|]; [|discriminate].
        destruct (m_apply (ask k 2%nat) (s_all a) _) as [al|]; [|discriminate]. injection E1 as <-. cbn [s_gmics]. unfold all_generated_valid in AV1. cbn [s_gen] in AV1.
        apply Forall_app in AV1. destruct AV1 as [AV1 AV4]. inversion_clear AV4 as [|? ? VV _]. cbn [fst snd] in VV. specialize (V AV1). apply valid_app in V. destruct V as [VG VP].
        split; [|exact VP]. apply valid_app. split; [exact VG|]. refine (generated_valid P ints _ _ _ W _ VV). unfold solver_list. destruct (0 <? g)%Z; [apply valid_app; split; assumption|exact VP].
      - injection E1 as <-. apply valid_app, V, AV1. }
    destruct V1 as [VG VP]. rewrite EV. apply valid_app. split; [exact VG|]. apply valid_app. split; [exact VP|]. apply VN. unfold solver_list. destruct (0 <? g)%Z; [apply valid_app; split; assumption|exact VP]. }
  { split; [apply contents_start, O|]. intros _ c x []. }
  specialize (V AV). split; [exact V|]. apply valid_app in V. destruct V as [VG VP]. intros x F IN. destruct C as (C1 & C2 & C3 & C4).
  split.
  - apply (with_cuts_integer P ints _ _ C1); [|exact F|exact IN]. unfold solver_list. destruct (0 <? g)%Z; [apply valid_app; split; assumption|exact VP].
  - intro NZ. destruct (C3 NZ) as (A1 & _ & A3 & _ & A5 & _). split; [exact (with_cuts_integer P ints _ _ A1 VG x F IN)|]. split; [exact (with_cuts_integer P ints _ _ A3 VP x F IN)|].
    apply (with_cuts_integer P ints _ _ A5); [apply valid_app; split; assumption|exact F|exact IN].
Qed.
Print Assumptions rounds_valid.

(** ** Bounds. *)
Lemma more_cuts_bound P l R v l' R' v' : with_cuts P l R -> with_cuts P l' R' -> incl l l' -> lp_opt R v -> lp_opt R' v' -> v <= v'.
Proof.
  intros (A & B & _ & D) (A' & B' & _ & D') IN [_ O] [(x & FX & VX) _]. assert (E : lp_value R' x = lp_value R x) by (unfold lp_value; rewrite A, A', B, B'; reflexivity).
  rewrite <- VX, E. apply O. apply D. apply D' in FX. destruct FX as [F C]. split; [exact F|]. rewrite Forall_forall in *. intros c Hc. apply C, IN, Hc.
Qed.
(** The solvers whose objective is reported after each round. *)
Definition vpcS (g : Z) (s : mainst) : msolver := if (g =? 0)%Z then s_solver s else s_vp s.
Definition allS (g : Z) (s : mainst) : msolver := if (g =? 0)%Z then s_solver s else s_all s.
Lemma contents_reported (K : list cut -> Prop) g P G V s : contents K g P G V s -> with_cuts P V (m_lp (vpcS g s)) /\ solved (vpcS g s) /\ with_cuts P (G ++ V) (m_lp (allS g s)) /\ solved (allS g s).
Proof.
  intros (C1 & (_ & C2) & C3 & C4). unfold vpcS, allS. destruct (Z.eqb_spec g 0) as [G0|NZ].
  - rewrite (C4 G0). subst g. cbn [solver_list Z.ltb Z.compare app] in *. auto.
  - destruct (C3 NZ) as (A1 & (_ & A2) & A3 & (_ & A4) & A5 & (_ & A6)). auto.
Qed.
Definition reported (l : list (option Q)) (v0 v : Q) : Prop := exists q, l = map Some q /\ Sorted Qle (v0 :: q) /\ last q v0 == v.
Lemma sorted_snoc : forall l a v, Sorted Qle (a :: l) -> last l a <= v -> Sorted Qle (a :: l ++ [v]).
Proof.
  induction l as [|b l IH]; intros a v S L; cbn [app last] in *.
  - constructor; [constructor; constructor|constructor; exact L].
  - inversion_clear S as [|? ? S1 S2]. constructor; [|constructor; inversion S2; assumption].
    apply IH; [exact S1|]. destruct l as [|c l]; [exact L|]. replace (last (c :: l) b) with (last (c :: l) a); [exact L|]. clear. revert c. induction l as [|d l IH]; intro c; [reflexivity|]. cbn [last] in *. apply IH.
Qed.
Lemma last_snoc {A} (l : list A) x d : last (l ++ [x]) d = x.
Proof. induction l as [|a l IH]; [reflexivity|]. cbn [app]. destruct (l ++ [x]) eqn:E; [destruct l; discriminate|]. cbn [last]. exact IH. Qed.
Lemma reported_snoc l v0 v v' : reported l v0 v -> v <= v' -> reported (l ++ [Some v']) v0 v'.
Proof.
  intros (q & -> & S & L) LE. exists (q ++ [v']). split; [rewrite map_app; reflexivity|]. split; [apply sorted_snoc; [exact S|rewrite L; exact LE]|]. rewrite last_snoc. reflexivity.
Qed.
(** The invariant on what is reported. *)
Definition reports (g : Z) (v0 : Q) (k : nat) (s : mainst) : Prop :=
  length (s_rounds s) = k /\
  (exists v, m_obj (vpcS g s) = Some v /\ reported (map ri_vpc (s_rounds s)) v0 v) /\
  (exists v, m_obj (allS g s) = Some v /\ reported (map ri_all (s_rounds s)) v0 v) /\
  (g <> 0%Z -> exists v, m_obj (s_gm s) = Some v /\ reported (map ri_gmic (s_rounds s)) v0 v) /\
  ((0 < k)%nat -> s_bvpc s = m_obj (vpcS g s) /\ s_ball s = m_obj (allS g s) /\ (g <> 0%Z -> s_bgmic s = m_obj (s_gm s))).
Lemma solved_obj s : solved s -> exists v, m_obj s = Some v /\ lp_opt (m_lp s) v.
Proof. intros (v & N & O). exists v. unfold m_obj. rewrite N. auto. Qed.
Lemma reports_step (K : list cut -> Prop) g ask e P v0 k s s1 s2 : (-1 <= g <= 1)%Z -> K (re_gmics e) -> K (round_vpcs e) -> (forall i, decisive K P (ask i)) -> contents K g P (s_gmics s) (s_vpcs s) s -> reports g v0 k s ->
  gomory_part g ask e s = Some s1 -> apply_part g ask e (m_obj (s_solver s)) (vpc_part e s1) = Some s2 -> reports g v0 (S k) s2.
Proof.
  intros GB KG KV D C (R0 & (v1 & V1 & R1) & (v2 & V2 & R2) & R3 & _) E1 E2.
  pose proof (contents_step K g ask e P _ s s1 s2 GB KG KV D C E1 E2) as C'.
  destruct (gomory_ok K g ask e s s1 P GB KG D C E1) as [C1 EV1].
  assert (FR : s_rounds s1 = s_rounds s /\ incl (s_gmics s) (s_gmics s1) /\ (g <> 0%Z -> s_bgmic s1 = m_obj (s_gm s1))).
  { unfold gomory_part in E1. destruct ((g =? -1)%Z || (g =? 1)%Z) eqn:GG.
    - destruct (m_apply (ask 0%nat) _ _) as [gm|]; [|discriminate]. destruct (if (0 <? g)%Z then _ else _) as [so|]; [|discriminate].
      destruct (m_apply (ask 2%nat) _ _) as [al|]; [|discriminate]. injection E1 as <-. cbn [s_rounds s_gmics s_bgmic s_gm]. split; [reflexivity|]. split; [apply incl_appl, incl_refl|reflexivity].
    - injection E1 as <-. split; [reflexivity|]. split; [apply incl_refl|]. intro NZ. apply Bool.orb_false_iff in GG. destruct GG as [G1 G2]. apply Z.eqb_neq in G1, G2. lia. }
  destruct FR as (F1 & F2 & F3).
  destruct (vpc_frame e s1) as (_ & FG & _ & _ & F5 & F6 & F7 & F8 & _).
  assert (CV : contents K g P (s_gmics (vpc_part e s1)) (s_vpcs s) (vpc_part e s1)).
  { destruct (vpc_frame e s1) as (K1 & K2 & K3 & K4 & K5 & _). unfold contents in *. rewrite K1, K2, K3, K4, K5. exact C1. }
  destruct (apply_ok K g ask e _ (vpc_part e s1) s2 P (s_vpcs s) GB KV D CV ltac:(rewrite F6, EV1; reflexivity) E2) as (_ & EG & EVV & EGM).
  assert (IG : incl (s_gmics s) (s_gmics s2)) by (rewrite EG, F5; exact F2).
  assert (IV : incl (s_vpcs s) (s_vpcs s2)) by (rewrite EVV, F6, EV1; apply incl_appl, incl_refl).
  destruct (contents_reported _ g P _ _ s C) as (P1 & P2 & P3 & P4). destruct (contents_reported _ g P _ _ s2 C') as (P1' & P2' & P3' & P4').
  destruct (solved_obj _ P2) as (w1 & W1 & O1). destruct (solved_obj _ P4) as (w2 & W2 & O2). destruct (solved_obj _ P2') as (w1' & W1' & O1'). destruct (solved_obj _ P4') as (w2' & W2' & O2').
  rewrite V1 in W1. injection W1 as <-. rewrite V2 in W2. injection W2 as <-.
  assert (RD : exists r, s_rounds s2 = s_rounds s ++ [r] /\ ri_vpc r = m_obj (vpcS g s2) /\ ri_all r = m_obj (allS g s2) /\ (g <> 0%Z -> ri_gmic r = m_obj (s_gm s2)) /\
                s_bvpc s2 = m_obj (vpcS g s2) /\ s_ball s2 = m_obj (allS g s2) /\ (g <> 0%Z -> s_bgmic s2 = m_obj (s_gm s2))).
  { unfold apply_part in E2. destruct (if is_nil _ then _ else _) as [[[vp so] al]|]; [|discriminate]. cbv zeta in E2. injection E2 as <-.
    eexists. cbn [s_rounds]. rewrite F7, F1. split; [reflexivity|]. cbn [ri_vpc ri_all ri_gmic s_bvpc s_ball s_bgmic s_gm]. unfold vpcS, allS. cbn [s_solver s_vp s_all].
    destruct (Z.eqb_spec g 0) as [G0|NZ]; cbn [negb]; (split; [reflexivity|]); (split; [reflexivity|]).
    - split; [intro X; elim X; exact G0|]. split; [reflexivity|]. split; [reflexivity|]. intro X; elim X; exact G0.
    - rewrite F8, FG. split; [intros _; apply F3, NZ|]. split; [reflexivity|]. split; [reflexivity|]. intros _; apply F3, NZ. }
  destruct RD as (r & RD & RV & RA & RG & B1 & B2 & B3). unfold reports. rewrite RD, app_length, !map_app. cbn [map length].
  split; [lia|]. split; [|split; [|split]].
  - exists w1'. split; [exact W1'|]. rewrite RV, W1'. apply reported_snoc with (1 := R1). exact (more_cuts_bound P _ _ _ _ _ _ P1 P1' IV O1 O1').
  - exists w2'. split; [exact W2'|]. rewrite RA, W2'. apply reported_snoc with (1 := R2). refine (more_cuts_bound P _ _ _ _ _ _ P3 P3' _ O2 O2').
    apply incl_app; [apply incl_appl, IG|apply incl_appr, IV].
  - intro NZ. destruct (R3 NZ) as (v3 & V3 & R3'). destruct C as (_ & _ & C3 & _). destruct C' as (_ & _ & C3' & _). destruct (C3 NZ) as (A1 & (_ & A2) & _). destruct (C3' NZ) as (A1' & (_ & A2') & _).
    destruct (solved_obj _ A2) as (w3 & W3 & O3). destruct (solved_obj _ A2') as (w3' & W3' & O3'). rewrite V3 in W3. injection W3 as <-.
    exists w3'. split; [exact W3'|]. rewrite (RG NZ), W3'. apply reported_snoc with (1 := R3'). exact (more_cuts_bound P _ _ _ _ _ _ A1 A1' IG O3 O3').
  - intros _. auto.
Qed.
(** After at least one round: the bounds reported per round never decrease, starting from the value of the LP
    relaxation; the final ones are the optimal values with the VPCs, the GMICs and all cuts; the bound with all
    cuts is at least each of the others; and if the cuts generated were valid none exceeds the value of an
    integer-feasible point. *)
Theorem reported_bounds : forall g ask env n P v0 s, (-1 <= g <= 1)%Z -> (forall k i, decisive (lists env) P (ask k i)) -> lp_opt P v0 -> (0 < n)%nat ->
  main_rounds g ask env n 0 (main_start P v0) = Some s ->
  exists vp al, s_bvpc s = Some vp /\ s_ball s = Some al /\ (0 < length (s_rounds s) <= n)%nat /\
    reported (map ri_vpc (s_rounds s)) v0 vp /\ reported (map ri_all (s_rounds s)) v0 al /\ v0 <= vp /\ vp <= al /\
    (g <> 0%Z -> exists gm, s_bgmic s = Some gm /\ reported (map ri_gmic (s_rounds s)) v0 gm /\ v0 <= gm /\ gm <= al) /\
    forall ints, all_generated_valid ints s -> forall x, feasible P x -> integral ints (ncols P) x -> al <= lp_value P x.
Proof.
  intros g ask env n P v0 s GB D O N H.
  destruct (main_ind (fun k s => contents (lists env) g P (s_gmics s) (s_vpcs s) s /\ reports g v0 k s) g ask env) with (fuel := n) (k := 0%nat) (s := main_start P v0) (s' := s) as (k' & BK & C & R); [| |exact H|].
  { intros k a a1 a2 [C R] E1 E2. split; [exact (contents_step (lists env) g (ask k) (env k) P _ a a1 a2 GB (lists_g env k) (lists_v env k) (D k) C E1 E2)|exact (reports_step (lists env) g (ask k) (env k) P v0 k a a1 a2 GB (lists_g env k) (lists_v env k) (D k) C R E1 E2)]. }
  { split; [apply contents_start, O|]. unfold reports, vpcS, allS, main_start. cbn [s_rounds s_solver s_vp s_all s_gm length map]. split; [reflexivity|].
    assert (RR : exists v, m_obj {| m_lp := P; m_now := LOptimal v0 |} = Some v /\ reported [] v0 v).
    { exists v0. split; [reflexivity|]. exists []. split; [reflexivity|]. split; [constructor; constructor|reflexivity]. }
    split; [destruct (g =? 0)%Z; exact RR|]. split; [destruct (g =? 0)%Z; exact RR|]. split; [intros _; exact RR|lia]. }
  assert (KP : (0 < k')%nat).
  { destruct n as [|n]; [lia|]. cbn [main_rounds] in H. destruct (gomory_part g (ask 0%nat) (env 0%nat) (main_start P v0)) as [a1|]; [|discriminate].
    destruct (apply_part g (ask 0%nat) (env 0%nat) _ (vpc_part (env 0%nat) a1)) as [a2|] eqn:E2; [|discriminate].
    assert (L2 : (0 < length (s_rounds a2))%nat).
    { unfold apply_part in E2. destruct (if is_nil _ then _ else _) as [[[vp so] al]|]; [|discriminate]. injection E2 as <-. cbn [s_rounds]. rewrite app_length. cbn [length]. lia. }
    destruct R as (R0 & _). destruct (stops g (env 0%nat) a2); [injection H as <-; lia|].
    assert (G : forall f k s s', (0 < length (s_rounds s))%nat -> main_rounds g ask env f k s = Some s' -> (0 < length (s_rounds s'))%nat).
    { clear. intros f k s s' L H. destruct (main_ind (fun _ s => (0 < length (s_rounds s))%nat) g ask env) with (fuel := f) (k := k) (s := s) (s' := s') as (k' & _ & X); [|exact L|exact H|exact X].
      intros j a a1 a2 _ _ E2. unfold apply_part in E2. destruct (if is_nil _ then _ else _) as [[[vp so] al]|]; [|discriminate]. injection E2 as <-. cbn [s_rounds]. rewrite app_length. cbn [length]. lia. }
    specialize (G n 1%nat a2 s L2 H). lia. }
  destruct R as (R0 & (v1 & V1 & R1) & (v2 & V2 & R2) & R3 & R4). destruct (R4 KP) as (B1 & B2 & B3). exists v1, v2.
  destruct (contents_reported _ g P _ _ s C) as (P1 & P2 & P3 & P4). destruct (solved_obj _ P2) as (w1 & W1 & O1). destruct (solved_obj _ P4) as (w2 & W2 & O2).
  rewrite V1 in W1. injection W1 as <-. rewrite V2 in W2. injection W2 as <-.
  split; [congruence|]. split; [congruence|]. split; [lia|]. split; [exact R1|]. split; [exact R2|].
  pose proof (with_cuts_nil P) as WN.
  split; [exact (more_cuts_bound P _ _ _ _ _ _ WN P1 (incl_nil_l _) O O1)|]. split; [exact (more_cuts_bound P _ _ _ _ _ _ P1 P3 (incl_appr _ (incl_refl _)) O1 O2)|]. split.
  - intro NZ. destruct (R3 NZ) as (v3 & V3 & R3'). exists v3. split; [rewrite (B3 NZ); exact V3|]. split; [exact R3'|]. destruct C as (_ & _ & C3 & _). destruct (C3 NZ) as (A1 & (_ & A2) & _).
    destruct (solved_obj _ A2) as (w3 & W3 & O3). rewrite V3 in W3. injection W3 as <-.
    split; [exact (more_cuts_bound P _ _ _ _ _ _ WN A1 (incl_nil_l _) O O3)|exact (more_cuts_bound P _ _ _ _ _ _ A1 P3 (incl_appl _ (incl_refl _)) O3 O2)].
  - intros ints AV x F IN. destruct (rounds_valid g ask env n P v0 ints s GB D O H AV) as [VV _].
    pose proof (with_cuts_integer P ints _ _ P3 VV x F IN) as FX. destruct O2 as [_ O2]. destruct P3 as (A & B & _). specialize (O2 x FX). unfold lp_value in *. rewrite A, B in O2. exact O2.
Qed.
Print Assumptions reported_bounds.

(** ** Numbers of cuts and bounds of the disjunctions. *)
Lemma rounds_frame g ask e o0 s s1 s2 : gomory_part g ask e s = Some s1 -> apply_part g ask e o0 (vpc_part e s1) = Some s2 ->
  (exists r, s_rounds s2 = s_rounds s ++ [r] /\
    ri_ngmic r = (if (g =? 0)%Z then 0 else length (re_gmics e))%nat /\ ri_nvpc r = (if re_should e && negb (is_nil (re_disjs e)) then re_num e else 0)%nat) /\
  s_ngmic s2 = (s_ngmic s + if (g =? -1)%Z || (g =? 1)%Z then length (re_gmics e) else 0)%nat /\
  s_nvpc s2 = (s_nvpc s + if re_should e && negb (is_nil (re_disjs e)) then re_num e else 0)%nat /\
  s_gmics s2 = s_gmics s ++ (if (g =? -1)%Z || (g =? 1)%Z then re_gmics e else []) /\
  s_vpcs s2 = s_vpcs s ++ round_vpcs e /\
  s_best s2 = (if re_should e then fold_left (fun b d => max_if b (fst d)) (re_disjs e) (s_best s) else s_best s) /\
  s_worst s2 = (if re_should e then fold_left (fun b d => max_if b (snd d)) (re_disjs e) (s_worst s) else s_worst s).
Proof.
  intros E1 E2.
  assert (F : s_rounds s1 = s_rounds s /\ s_ngmic s1 = (s_ngmic s + if (g =? -1)%Z || (g =? 1)%Z then length (re_gmics e) else 0)%nat /\ s_nvpc s1 = s_nvpc s /\
    s_gmics s1 = s_gmics s ++ (if (g =? -1)%Z || (g =? 1)%Z then re_gmics e else []) /\ s_vpcs s1 = s_vpcs s /\ s_best s1 = s_best s /\ s_worst s1 = s_worst s).
  { unfold gomory_part in E1. destruct ((g =? -1)%Z || (g =? 1)%Z).
    - destruct (m_apply (ask 0%nat) _ _) as [gm|]; [|discriminate]. destruct (if (0 <? g)%Z then _ else _) as [so|]; [|discriminate].
      destruct (m_apply (ask 2%nat) _ _) as [al|]; [|discriminate]. injection E1 as <-. cbn. auto 10.
    - injection E1 as <-. rewrite Nat.add_0_r, app_nil_r. auto 10. }
  destruct F as (F1 & F2 & F3 & F4 & F5 & F6 & F7).
  unfold apply_part in E2. destruct (if is_nil _ then _ else _) as [[[vp so] al]|]; [|discriminate]. cbv zeta in E2. injection E2 as <-.
  cbn [s_rounds s_ngmic s_nvpc s_gmics s_vpcs s_best s_worst]. rewrite <- F1, <- F2, <- F3, <- F4, <- F5, <- F6, <- F7.
  split.
  - destruct (vpc_frame e s1) as (_ & _ & _ & _ & _ & _ & FR & _). eexists. split; [rewrite FR; reflexivity|]. cbn [ri_ngmic ri_nvpc]. split; [destruct (g =? 0)%Z; reflexivity|reflexivity].
  - unfold vpc_part, round_vpcs. destruct (re_should e); cbn [s_ngmic s_nvpc s_gmics s_vpcs s_best s_worst andb].
    + destruct (is_nil (re_disjs e)); cbn [negb]; rewrite ?Nat.add_0_r; auto 10.
    + rewrite Nat.add_0_r, app_nil_r. auto 10.
Qed.
Definition sum (l : list nat) : nat := fold_right Nat.add 0%nat l.
Lemma sum_snoc l x : sum (l ++ [x]) = (sum l + x)%nat.
Proof. unfold sum. induction l as [|a l IH]; cbn [app fold_right]; lia. Qed.
(** What the generator is assumed to report: the number of cuts in its pool, and cuts only if there was a disjunction
    (C06 and C55). *)
Definition counted (env : nat -> roundenv) : Prop := forall k, re_num (env k) = length (re_vpcs (env k)) /\ (re_disjs (env k) = [] -> re_vpcs (env k) = []).
(** The numbers reported are the numbers of cuts collected, and the sums of those of the rounds. *)
Theorem reported_counts : forall g ask env n P v0 s, (-1 <= g <= 1)%Z -> counted env -> main_rounds g ask env n 0 (main_start P v0) = Some s ->
  s_ngmic s = length (s_gmics s) /\ s_nvpc s = length (s_vpcs s) /\
  s_ngmic s = sum (map ri_ngmic (s_rounds s)) /\ s_nvpc s = sum (map ri_nvpc (s_rounds s)).
Proof.
  intros g ask env n P v0 s GB CT H.
  destruct (main_ind (fun _ s => s_ngmic s = length (s_gmics s) /\ s_nvpc s = length (s_vpcs s) /\
    s_ngmic s = sum (map ri_ngmic (s_rounds s)) /\ s_nvpc s = sum (map ri_nvpc (s_rounds s))) g ask env) with (fuel := n) (k := 0%nat) (s := main_start P v0) (s' := s) as (k' & _ & C); [| |exact H|exact C].
  2:{ repeat split. }
  intros k a a1 a2 (A & B & C & D) E1 E2. destruct (rounds_frame _ _ _ _ _ _ _ E1 E2) as ((r & R1 & R2 & R3) & R4 & R5 & R6 & R7 & _).
  destruct (CT k) as [N1 N2].
  rewrite R4, R5, R6, R7, R1, !map_app, !app_length. cbn [map]. rewrite !sum_snoc, R2, R3. unfold round_vpcs.
  assert (X : ((if re_should (env k) && negb (is_nil (re_disjs (env k))) then re_num (env k) else 0) = length (if re_should (env k) then re_vpcs (env k) else []))%nat).
  { destruct (re_should (env k)); [|reflexivity]. cbn [andb]. destruct (re_disjs (env k)) as [|d l]; cbn [is_nil negb]; [rewrite N2; reflexivity|exact N1]. }
  assert (Y : ((if (g =? -1)%Z || (g =? 1)%Z then length (re_gmics (env k)) else 0) = length (if (g =? -1)%Z || (g =? 1)%Z then re_gmics (env k) else []))%nat)
    by (destruct (_ || _); reflexivity).
  assert (Z : ((if (g =? -1)%Z || (g =? 1)%Z then length (re_gmics (env k)) else 0) = if (g =? 0)%Z then 0 else length (re_gmics (env k)))%nat).
  { destruct (Z.eqb_spec g 0), (Z.eqb_spec g (-1)), (Z.eqb_spec g 1); try lia; reflexivity. }
  repeat split; lia.
Qed.
Print Assumptions reported_counts.

Lemma max_fold f (l : list (Q * Q)) : forall b z, fold_left (fun b d => max_if b (f d)) l b <= z <-> b <= z /\ forall d, In d l -> f d <= z.
Proof.
  induction l as [|d l IH]; intros b z; cbn [fold_left]; [split; [intro H; split; [exact H|intros ? []]|tauto]|].
  rewrite IH. split.
  - intros [A B]. unfold max_if in A. destruct (Qltb b (f d)) eqn:L.
    + apply Qltb_lt in L. split; [lra|]. intros e [<-|He]; [lra|apply B, He].
    + apply Qltb_ge in L. split; [exact A|]. intros e [<-|He]; [lra|apply B, He].
  - intros [A B]. split; [unfold max_if; destruct (Qltb b (f d)); [apply B; left; reflexivity|exact A]|]. intros e He. apply B. right. exact He.
Qed.
(** The disjunctive bounds reported are the largest best and worst objective values over the disjunctions of all
    rounds: they are below [z] exactly when all of those are. *)
Theorem reported_disjunctive_bounds : forall g ask env n P v0 s, main_rounds g ask env n 0 (main_start P v0) = Some s ->
  forall z, - DBL_MAX <= z ->
  (s_best s <= z <-> forall k d, (k < length (s_rounds s))%nat -> re_should (env k) = true -> In d (re_disjs (env k)) -> fst d <= z) /\
  (s_worst s <= z <-> forall k d, (k < length (s_rounds s))%nat -> re_should (env k) = true -> In d (re_disjs (env k)) -> snd d <= z).
Proof.
  intros g ask env n P v0 s H z LO.
  destruct (main_ind (fun k s => length (s_rounds s) = k /\
    (s_best s <= z <-> forall j d, (j < k)%nat -> re_should (env j) = true -> In d (re_disjs (env j)) -> fst d <= z) /\
    (s_worst s <= z <-> forall j d, (j < k)%nat -> re_should (env j) = true -> In d (re_disjs (env j)) -> snd d <= z)) g ask env)
    with (fuel := n) (k := 0%nat) (s := main_start P v0) (s' := s) as (k' & _ & <- & C); [| |exact H|exact C].
  2:{ split; [reflexivity|]. cbn [main_start s_best s_worst]. split; (split; [intros _ j d Hj; lia|intros _; exact LO]). }
  intros k a a1 a2 (A & B & C) E1 E2. destruct (rounds_frame _ _ _ _ _ _ _ E1 E2) as ((r & R1 & _) & _ & _ & _ & _ & R8 & R9).
  split; [rewrite R1, app_length; cbn [length]; lia|]. rewrite R8, R9.
  assert (G : forall (f : Q * Q -> Q) b, (b <= z <-> forall j d, (j < k)%nat -> re_should (env j) = true -> In d (re_disjs (env j)) -> f d <= z) ->
    ((if re_should (env k) then fold_left (fun b d => max_if b (f d)) (re_disjs (env k)) b else b) <= z <->
     forall j d, (j < S k)%nat -> re_should (env j) = true -> In d (re_disjs (env j)) -> f d <= z)).
  { intros f b IH. destruct (re_should (env k)) eqn:SH.
    - rewrite max_fold, IH. split.
      + intros [X Y] j d Hj SJ Hd. destruct (Nat.eq_dec j k) as [->|NE]; [apply Y, Hd|apply (X j); [lia|exact SJ|exact Hd]].
      + intro X. split; [intros j d Hj; apply X; lia|]. intros d Hd. apply (X k); [lia|exact SH|exact Hd].
    - rewrite IH. split.
      + intros X j d Hj SJ Hd. apply (X j); [|exact SJ|exact Hd]. destruct (Nat.eq_dec j k) as [->|NE]; [congruence|lia].
      + intros X j d Hj. apply X; lia. }
  split; [exact (G fst _ B)|exact (G snd _ C)].
Qed.
Print Assumptions reported_disjunctive_bounds.

(** ** When the loop stops. *)
(** The documented reasons: time limit; no cuts in this round (VPCs if they are generated, else GMICs); the LP is no
    longer optimal with a finite value; the generator found an optimal solution. *)
Definition reason (g : Z) (e : roundenv) (v : option Q) : Prop :=
  re_timeup e = true \/ (re_should e = true /\ re_vpcs e = []) \/ (re_should e = false /\ (g = 0%Z \/ re_gmics e = [])) \/
  (v = None \/ exists q, v = Some q /\ DBL_MAX - EPS7 < Qabs q) \/ re_found e = true.
Lemma is_nil_iff {A} (l : list A) : is_nil l = true <-> l = [].
Proof. destruct l; cbn [is_nil]; split; congruence. Qed.
Lemma stops_reason g e s : stops g e s = true <-> reason g e (m_obj (s_solver s)).
Proof.
  unfold stops, reason. rewrite !Bool.orb_true_iff, !Bool.andb_true_iff, is_nil_iff, Bool.negb_true_iff.
  assert (A : is_nil (if negb (g =? 0)%Z then re_gmics e else []) = true <-> g = 0%Z \/ re_gmics e = []).
  { destruct (Z.eqb_spec g 0) as [G0|NZ]; cbn [negb is_nil]; [tauto|]. rewrite is_nil_iff. tauto. }
  assert (B : (match m_obj (s_solver s) with None => true | Some v => isInfinity (Qabs v) DBL_MAX EPS7 end) = true <->
              m_obj (s_solver s) = None \/ exists q, m_obj (s_solver s) = Some q /\ DBL_MAX - EPS7 < Qabs q).
  { destruct (m_obj (s_solver s)) as [v|]; [|tauto]. assert (I : isInfinity (Qabs v) DBL_MAX EPS7 = true <-> DBL_MAX - EPS7 < Qabs v).
    { unfold isInfinity, lessThanVal. assert (0 < EPS7) by reflexivity. rewrite Bool.orb_true_iff, Qle_bool_iff, Bool.negb_true_iff. split.
      - intros [X|X]; [lra|]. apply Qle_bool_gt in X. lra.
      - intro X. right. apply Bool.not_true_iff_false. intro Y. apply Qle_bool_iff in Y. lra. }
    rewrite I. split.
    - intro H. right. exists v. split; [reflexivity|exact H].
    - intros [H|(q & [= <-] & H)]; [discriminate|exact H]. }
  rewrite A, B. tauto.
Qed.
(** The number of rounds done is the number recorded; the run is the one limited to that many rounds; no earlier round
    gave a reason to stop; and if there were fewer rounds than allowed, the last one did. *)
Theorem stopping : forall g ask env n P v0 s, main_rounds g ask env n 0 (main_start P v0) = Some s ->
  let k := length (s_rounds s) in
  (k <= n)%nat /\ (0 < n -> 0 < k)%nat /\ main_rounds g ask env k 0 (main_start P v0) = Some s /\
  (forall j, (0 < j < k)%nat -> exists sj, main_rounds g ask env j 0 (main_start P v0) = Some sj /\ length (s_rounds sj) = j /\
     ~ reason g (env (j - 1)%nat) (m_obj (s_solver sj))) /\
  ((k < n)%nat -> reason g (env (k - 1)%nat) (m_obj (s_solver s))).
Proof.
  intros g ask env n P v0 s H. cbv zeta.
  assert (G : forall fuel k a a', main_rounds g ask env fuel k a = Some a' -> exists m, (m <= fuel)%nat /\ (0 < fuel -> 0 < m)%nat /\
     length (s_rounds a') = (length (s_rounds a) + m)%nat /\ main_rounds g ask env m k a = Some a' /\
     (forall j, (0 < j < m)%nat -> exists aj, main_rounds g ask env j k a = Some aj /\ length (s_rounds aj) = (length (s_rounds a) + j)%nat /\ stops g (env (k + j - 1)%nat) aj = false) /\
     ((m < fuel)%nat -> stops g (env (k + m - 1)%nat) a' = true)).
  { clear. induction fuel as [|f IH]; intros k a a' H.
    - injection H as <-. exists 0%nat. split; [lia|]. split; [lia|]. split; [lia|]. split; [reflexivity|]. split; [intros j Hj; lia|lia].
    - cbn [main_rounds] in H. destruct (gomory_part g (ask k) (env k) a) as [a1|] eqn:E1; [|discriminate].
      destruct (apply_part g (ask k) (env k) (m_obj (s_solver a)) (vpc_part (env k) a1)) as [a2|] eqn:E2; [|discriminate].
      assert (L : length (s_rounds a2) = S (length (s_rounds a))).
      { destruct (rounds_frame _ _ _ _ _ _ _ E1 E2) as ((r & -> & _) & _). rewrite app_length. cbn [length]. lia. }
      destruct (stops g (env k) a2) eqn:ST.
      + injection H as <-. exists 1%nat. split; [lia|]. split; [lia|]. split; [lia|]. split; [cbn [main_rounds]; rewrite E1, E2, ST; reflexivity|].
        split; [intros j Hj; lia|]. intros _. replace (k + 1 - 1)%nat with k by lia. exact ST.
      + destruct (IH (S k) a2 a' H) as (m & M1 & M2 & M3 & M4 & M5 & M6). exists (S m). split; [lia|]. split; [lia|]. split; [lia|].
        split; [cbn [main_rounds]; rewrite E1, E2, ST; exact M4|]. split.
        * intros j Hj. destruct j as [|[|j]]; [lia| |].
          -- exists a2. split; [cbn [main_rounds]; rewrite E1, E2, ST; reflexivity|]. split; [lia|]. replace (k + 1 - 1)%nat with k by lia. exact ST.
          -- destruct (M5 (S j) ltac:(lia)) as (aj & J1 & J2 & J3). exists aj. split; [|split; [lia|]].
             ++ change (main_rounds g ask env (S (S j)) k a) with (match gomory_part g (ask k) (env k) a with None => None | Some s1 =>
                  match apply_part g (ask k) (env k) (m_obj (s_solver a)) (vpc_part (env k) s1) with None => None
                  | Some s2 => if stops g (env k) s2 then Some s2 else main_rounds g ask env (S j) (S k) s2 end end). rewrite E1, E2, ST. exact J1.
             ++ replace (k + S (S j) - 1)%nat with (S k + S j - 1)%nat by lia. exact J3.
        * intro MF. replace (k + S m - 1)%nat with (S k + m - 1)%nat by lia. apply M6. lia. }
  destruct (G n 0%nat _ s H) as (m & M1 & M2 & M3 & M4 & M5 & M6). cbn [main_start s_rounds length] in M3. cbn [Nat.add] in M3. rewrite M3.
  split; [exact M1|]. split; [exact M2|]. split; [exact M4|]. split.
  - intros j Hj. destruct (M5 j Hj) as (sj & J1 & J2 & J3). exists sj. split; [exact J1|]. split; [exact J2|]. rewrite <- stops_reason. cbn [Nat.add] in J3. congruence.
  - intro MF. apply stops_reason. exact (M6 MF).
Qed.
Print Assumptions stopping.

(** ** A concrete run: minimise x over 1/3 <= x <= 3 with x integer, all cuts of the form x >= r, and a solver that
    answers the largest of the lower bounds. *)
Definition geq (r : Q) : cut := {| crow := [(0%nat, 1)]; crhs := r |}.
Definition exP : lp := {| ncols := 1; nrows := 0; clo := fun _ => Some (1 # 3); cup := fun _ => Some 3; rows := fun _ => {| rcoef := []; rlo := None; rup := None |}; obj := fun _ => 1 |}.
Definition exask : solver_oracle := fun _ R => LOptimal (fold_left (fun b i => max_if b (loVal (rlo (rows R i)))) (seq 0 (nrows R)) (1 # 3)).
Definition exenv (k : nat) : roundenv :=
  {| re_gmics := match k with O => [geq 1] | _ => [] end; re_should := true; re_vpcs := match k with O => [geq (1 # 2); geq (2 # 5)] | _ => [] end;
     re_num := match k with O => 2 | _ => 0 end; re_disjs := [(1, 2)]; re_timeup := false; re_found := false |}.
Definition cuts_up_to3 (l : list cut) : Prop := forall c, In c l -> exists r, c = geq r /\ r <= 3.
Lemma ex_lists l : lists exenv l -> cuts_up_to3 l.
Proof.
  intros ([|k] & [->| ->]) c Hc; cbn in Hc; repeat (destruct Hc as [<-|Hc]; [eexists; split; [reflexivity|vm_compute; discriminate]|]); elim Hc.
Qed.
Definition simple (R : lp) : Prop := ncols R = 1%nat /\ obj R = obj exP /\ clo R = clo exP /\ cup R = cup exP /\
  forall i, (i < nrows R)%nat -> exists r, rows R i = cut_row (geq r) /\ r <= 3.
Lemma ex_grown R : grown (lists exenv) exP R -> simple R.
Proof.
  induction 1 as [|R l G (A & B & C & D & E) L]; [repeat split; intros i Hi; cbn in Hi; lia|].
  unfold simple. cbn [add_rows ncols obj clo cup nrows rows]. split; [exact A|]. split; [exact B|]. split; [exact C|]. split; [exact D|].
  intros i Hi. destruct (Nat.ltb_spec i (nrows R)) as [LT|GE]; [apply E, LT|]. rewrite map_length in Hi.
  destruct (ex_lists l L (nth (i - nrows R) l (geq 0))) as (r & Er & Br); [apply nth_In; lia|]. exists r. split; [|exact Br].
  rewrite (nth_indep _ _ (cut_row (geq 0))) by (rewrite map_length; lia). rewrite map_nth, Er. reflexivity.
Qed.
Lemma fold_max (f : nat -> Q) : forall l b, let m := fold_left (fun b i => max_if b (f i)) l b in
  b <= m /\ (forall i, In i l -> f i <= m) /\ (m = b \/ exists i, In i l /\ m = f i).
Proof.
  induction l as [|i l IH]; intros b m; [split; [apply Qle_refl|]; split; [intros ? []|left; reflexivity]|].
  destruct (IH (max_if b (f i))) as (A & B & C). cbn [fold_left] in m. fold m in A, B, C.
  assert (X : b <= max_if b (f i) /\ f i <= max_if b (f i)) by (unfold max_if; destruct (Qltb b (f i)) eqn:L; [apply Qltb_lt in L|apply Qltb_ge in L]; lra).
  split; [lra|]. split; [intros j [<-|Hj]; [lra|apply B, Hj]|].
  destruct C as [C|(j & Hj & C)]; [|right; exists j; split; [right; exact Hj|exact C]].
  unfold max_if in C. destruct (Qltb b (f i)); [right; exists i; split; [left; reflexivity|exact C]|left; exact C].
Qed.
Example ex_decisive : forall k i, decisive (lists exenv) exP ((fun _ _ : nat => exask) k i).
Proof.
  intros _ _ n R G. destruct (ex_grown R G) as (A & B & C & D & E). unfold exask.
  destruct (fold_max (fun i => loVal (rlo (rows R i))) (seq 0 (nrows R)) (1 # 3)) as (M1 & M2 & M3).
  set (m := fold_left _ _ _) in *. split; [|left; exists m; reflexivity].
  assert (LO : forall i r, (i < nrows R)%nat -> rows R i = cut_row (geq r) -> r <= m).
  { intros i r Hi Er. specialize (M2 i ltac:(apply in_seq; lia)). cbv beta in M2. rewrite Er in M2. exact M2. }
  assert (UP : m <= 3).
  { destruct M3 as [->|(i & Hi & ->)]; [vm_compute; discriminate|]. apply in_seq in Hi. destruct (E i ltac:(lia)) as (r & Er & Br). rewrite Er. exact Br. }
  assert (VAL : forall x, lp_value R x == x 0%nat).
  { intro x. unfold lp_value. rewrite A, B. cbn [seq]. rewrite Qsumf_cons, Qsumf_nil. cbn [exP obj]. ring. }
  assert (DOT : forall r x, pdot (rcoef (cut_row (geq r))) x == x 0%nat).
  { intros r x. cbn [cut_row rcoef geq crow]. rewrite pdot_cons, pdot_nil. cbn [fst snd]. ring. }
  split.
  - exists (fun _ => m). split; [|apply VAL]. split.
    + intros j Hj. rewrite C, D. cbn [exP clo cup above below]. lra.
    + intros i Hi. destruct (E i Hi) as (r & Er & Br). rewrite Er. cbn [cut_row rlo rup above below geq crhs]. split; [|trivial].
      change (pdot (crow (geq r)) (fun _ => m)) with (pdot (rcoef (cut_row (geq r))) (fun _ => m)). rewrite DOT. exact (LO i r Hi Er).
  - intros y [BX RW]. rewrite VAL. destruct (BX 0%nat ltac:(lia)) as [Y1 _]. rewrite C in Y1. cbn [exP clo above] in Y1.
    destruct M3 as [->|(i & Hi & ->)]; [exact Y1|]. apply in_seq in Hi. destruct (E i ltac:(lia)) as (r & Er & Br).
    destruct (RW i ltac:(lia)) as [Z1 _]. rewrite Er in *. cbn [cut_row rlo above loVal geq crhs] in *.
    change (r <= pdot (rcoef (cut_row (geq r))) y) in Z1. rewrite DOT in Z1. exact Z1.
Qed.
Example ex_opt : lp_opt exP (1 # 3).
Proof. exact (proj1 (ex_decisive 0 0 0%nat exP (grown_here _ _))). Qed.
Definition exints (_ : nat) : bool := true.
(** Two rounds with GOMORY = 1; the second finds nothing.  The hypotheses of all theorems above hold of it, and the
    bounds are 1/2 with the VPCs, 1 with the GMIC and 1 with all cuts. *)
Example ex_run : exists s, main_rounds 1 (fun _ _ => exask) exenv 5 0 (main_start exP (1 # 3)) = Some s /\ counted exenv /\
  s_bvpc s = Some (1 # 2) /\ s_bgmic s = Some 1 /\ s_ball s = Some 1 /\ length (s_rounds s) = 2%nat /\ s_ngmic s = 1%nat /\ s_nvpc s = 2%nat /\
  s_best s = 1 /\ s_worst s = 2 /\ all_generated_valid exints s.
Proof.
  eexists. split; [vm_compute; reflexivity|]. split; [intros [|k]; (split; [reflexivity|]); discriminate|].
  do 8 (split; [reflexivity|]).
  assert (V : forall R r, r <= 1 -> clo R = clo exP -> ncols R = 1%nat -> forall x, feasible R x -> integral exints (ncols R) x -> satisfies_cut (geq r) x).
  { intros R r Hr CL NC x [BX _] IN. destruct (BX 0%nat ltac:(lia)) as [Y1 _]. rewrite CL in Y1. cbn [exP clo above] in Y1.
    destruct (IN 0%nat ltac:(lia) eq_refl) as (z & Ez). unfold satisfies_cut. cbn [geq crow crhs]. rewrite pdot_cons, pdot_nil. cbn [fst snd].
    assert (1 <= inject_Z z). { change 1 with (inject_Z 1). rewrite <- Zle_Qle. rewrite Ez in Y1. unfold Qle in Y1. cbn in Y1. lia. }
    rewrite Ez. lra. }
  assert (W : forall R l, clo R = clo exP -> ncols R = 1%nat -> Forall (fun c => exists r, c = geq r /\ r <= 1) l -> valid_for R exints l).
  { intros R l CL NC AL c x Hc. rewrite Forall_forall in AL. destruct (AL c Hc) as (r & -> & Br). exact (V R r Br CL NC x). }
  unfold all_generated_valid. cbn [s_gen].
  repeat (apply Forall_cons; [apply W; [reflexivity|reflexivity|cbn [snd]; repeat (apply Forall_cons; [eexists; split; [reflexivity|vm_compute; discriminate]|]); apply Forall_nil]|]).
  apply Forall_nil.
Qed.

(** ** The start of a round. *)
Lemma same_cuts_value P l R v l' R' v' : with_cuts P l R -> with_cuts P l' R' -> incl l l' -> incl l' l -> lp_opt R v -> lp_opt R' v' -> v == v'.
Proof.
  intros W W' I I' O O'. pose proof (more_cuts_bound P l R v l' R' v' W W' I O O'). pose proof (more_cuts_bound P l' R' v' l R v W' W I' O' O). lra.
Qed.
(** Printed as "Round start obj value" of a round is the bound with all cuts of the round before (main.cpp:724-727).  With
    GOMORY = 0 or 1 that is the objective the round does start from. *)
Theorem round_start : forall g ask env n P v0 s, (0 <= g <= 1)%Z -> (forall k i, decisive (lists env) P (ask k i)) -> lp_opt P v0 ->
  main_rounds g ask env n 0 (main_start P v0) = Some s ->
  forall i a b, nth_error (s_rounds s) i = Some a -> nth_error (s_rounds s) (S i) = Some b ->
  exists u v, ri_all a = Some u /\ ri_lp b = Some v /\ u == v.
Proof.
  intros g ask env n P v0 s GB D O H.
  destruct (main_ind (fun _ s => contents (lists env) g P (s_gmics s) (s_vpcs s) s /\
    (forall a, nth_error (s_rounds s) (length (s_rounds s) - 1) = Some a -> exists u v, ri_all a = Some u /\ m_obj (s_solver s) = Some v /\ u == v) /\
    forall i a b, nth_error (s_rounds s) i = Some a -> nth_error (s_rounds s) (S i) = Some b -> exists u v, ri_all a = Some u /\ ri_lp b = Some v /\ u == v) g ask env)
    with (fuel := n) (k := 0%nat) (s := main_start P v0) (s' := s) as (k' & _ & _ & _ & C); [| |exact H|exact C].
  2:{ split; [apply contents_start, O|]. cbn [main_start s_rounds]. split; [intros a X|intros i a b X]; destruct_with_eqn (length (@nil roundinfo)); try destruct i; discriminate. }
  assert (GB' : (-1 <= g <= 1)%Z) by lia.
  intros k a a1 a2 (C & L & N) E1 E2. pose proof (contents_step (lists env) g (ask k) (env k) P _ a a1 a2 GB' (lists_g env k) (lists_v env k) (D k) C E1 E2) as C'.
  assert (R : exists r, s_rounds a2 = s_rounds a ++ [r] /\ ri_lp r = m_obj (s_solver a) /\ ri_all r = m_obj (allS g a2)).
  { destruct (rounds_frame _ _ _ _ _ _ _ E1 E2) as ((r & R1 & _) & _). exists r. split; [exact R1|].
    unfold apply_part in E2. destruct (if is_nil _ then _ else _) as [[[vp so] al]|]; [|discriminate]. cbv zeta in E2. injection E2 as <-. cbn [s_rounds] in R1.
    apply app_inj_tail in R1. destruct R1 as [_ <-]. cbn [ri_lp ri_all]. split; [reflexivity|]. unfold allS. cbn [s_solver s_all]. destruct (g =? 0)%Z; reflexivity. }
  destruct R as (r & R1 & R2 & R3). split; [exact C'|]. rewrite R1, app_length. cbn [length]. split.
  - replace (length (s_rounds a) + 1 - 1)%nat with (length (s_rounds a)) by lia. rewrite nth_error_app2, Nat.sub_diag by lia. intros x [= <-]. rewrite R3.
    destruct (contents_reported _ g P _ _ a2 C') as (_ & _ & P3 & P4). destruct C' as (C1 & (_ & C2) & _ & C4).
    destruct (solved_obj _ P4) as (u & U1 & U2). destruct (solved_obj _ C2) as (v & V1 & V2). exists u, v. split; [exact U1|]. split; [exact V1|].
    refine (same_cuts_value P _ _ _ _ _ _ P3 C1 _ _ U2 V2); unfold solver_list; destruct (Z.ltb_spec 0 g); try apply incl_refl; rewrite (C4 ltac:(lia)); apply incl_refl.
  - intros i x y X Y. destruct (Nat.lt_ge_cases (S i) (length (s_rounds a))) as [LT|GE].
    + rewrite nth_error_app1 in X, Y by lia. exact (N i x y X Y).
    + assert (Hi : S i = length (s_rounds a)).
      { assert (Z : (S i < length (s_rounds a ++ [r]))%nat) by (apply nth_error_Some; rewrite Y; discriminate). rewrite app_length in Z. cbn [length] in Z. lia. }
      rewrite nth_error_app2 in Y by lia. rewrite Hi, Nat.sub_diag in Y. injection Y as <-. rewrite nth_error_app1 in X by lia. rewrite R2. apply L. rewrite <- Hi. replace (S i - 1)%nat with i by lia. exact X.
Qed.
Print Assumptions round_start.
(** The example has a second round. *)
Example round_start_meets : exists s a b, main_rounds 1 (fun _ _ => exask) exenv 5 0 (main_start exP (1 # 3)) = Some s /\
  nth_error (s_rounds s) 0 = Some a /\ nth_error (s_rounds s) 1 = Some b /\ ri_all a = Some 1 /\ ri_lp b = Some 1.
Proof. do 3 eexists. split; [vm_compute; reflexivity|]. split; [reflexivity|]. split; [reflexivity|]. split; reflexivity. Qed.

(** With GOMORY = -1 it is not: the problem cuts are generated from has no GMICs, the bound printed has. *)
Theorem round_start_refuted : exists ask env P v0 s a b, (forall k i, decisive (lists env) P (ask k i)) /\ lp_opt P v0 /\
  main_rounds (-1) ask env 2 0 (main_start P v0) = Some s /\ nth_error (s_rounds s) 0 = Some a /\ nth_error (s_rounds s) 1 = Some b /\
  ri_all a = Some 1 /\ ri_lp b = Some (1 # 2).
Proof.
  exists (fun _ _ => exask), exenv, exP, (1 # 3). do 3 eexists. split; [exact ex_decisive|]. split; [exact ex_opt|].
  split; [vm_compute; reflexivity|]. split; [reflexivity|]. split; [reflexivity|]. split; reflexivity.
Qed.
Print Assumptions round_start_refuted.

(** If the solver for all cuts is stopped by a limit once, it silently gets no further cuts, while the rounds go on: the final
    bound "with all cuts" is then not that.  All answers given are truthful. *)
Theorem limit_refuted : exists ask env P v0 s, (forall k i n R, grown (lists env) P R -> truthful R (ask k i n R)) /\ lp_opt P v0 /\
  main_rounds (-1) ask env 2 0 (main_start P v0) = Some s /\ length (s_rounds s) = 2%nat /\
  ~ with_cuts P (s_gmics s ++ s_vpcs s) (m_lp (s_all s)) /\ s_ball s = None /\ s_bvpc s = Some (1 # 2).
Proof.
  exists (fun _ i => if Nat.eqb i 2 || Nat.eqb i 5 then fun _ _ => LLimit else exask), exenv, exP, (1 # 3). eexists. split; [|split; [exact ex_opt|]].
  - intros k i n R G. destruct (Nat.eqb i 2 || Nat.eqb i 5); [exact Logic.I|]. exact (proj1 (ex_decisive k i n R G)).
  - split; [vm_compute; reflexivity|]. split; [reflexivity|]. split; [|split; reflexivity]. intros (_ & _ & L & _). vm_compute in L. discriminate.
Qed.
Print Assumptions limit_refuted.

(** A disjunction for which no term was solved still has its initial best objective, the largest number, and the
    disjunctive bound reported is then that, above the value of an integer-feasible point. *)
Theorem disjunctive_bound_refuted : exists env s x, (forall k d, In d (re_disjs (env k)) -> fst d = DBL_MAX /\ snd d = - DBL_MAX) /\
  main_rounds 0 (fun _ _ => exask) env 1 0 (main_start exP (1 # 3)) = Some s /\ feasible exP x /\ integral exints 1 x /\ lp_value exP x < s_best s.
Proof.
  exists (fun _ => {| re_gmics := []; re_should := true; re_vpcs := []; re_num := 0; re_disjs := [(DBL_MAX, - DBL_MAX)]; re_timeup := true; re_found := false |}).
  eexists. exists (fun _ => 1). split; [intros k d [<-|[]]; split; reflexivity|]. split; [vm_compute; reflexivity|]. split; [|split; [|vm_compute; reflexivity]].
  - split; [|intros i Hi; cbn in Hi; lia]. intros j _. cbn. split; vm_compute; discriminate.
  - intros j _ _. exists 1%Z. reflexivity.
Qed.
Print Assumptions disjunctive_bound_refuted.
