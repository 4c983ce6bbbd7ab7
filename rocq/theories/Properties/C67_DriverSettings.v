(** C67: what the branch-and-bound drivers hand to the solvers: settings, start files, seeds, cuts, temporary files,
    and the check of the cuts against a solution. *)
From Coq Require Import String.
From Verif Require Import Prelude Model.Tolerance Model.TextUtil Model.LP Model.SolverHelper Model.BBInfo Model.Parameters
  Model.BBDrivers Spec.LPSpec Spec.ParamSpec Spec.DriverSpec Proofs.ToleranceP Proofs.TextP.
#[local] Open Scope list_scope.

(** ** Options as bits. *)
Definition bb_bit_of (o : bbOption) : Z := Z.log2 (bb_value o).
Lemma use_bit : forall s o, o <> off -> use_bb_option s o = Z.testbit s (bb_bit_of o).
Proof.
  assert (G : forall s n, (0 <= n)%Z -> negb (Z.land s (2 ^ n) =? 0)%Z = Z.testbit s n).
  { intros s n H. apply eq_true_iff_eq. rewrite negb_true_iff, Z.eqb_neq. split.
    - intro K. destruct (Z.testbit s n) eqn:T; [reflexivity|exfalso; apply K].
      apply Z.bits_inj'. intros m Hm. rewrite Z.land_spec, Z.bits_0. destruct (Z.eq_dec m n) as [->|D]; [rewrite T; reflexivity|].
      rewrite Z.pow2_bits_false by lia. apply andb_false_r.
    - intros T K. assert (Z.testbit (Z.land s (2 ^ n)) n = true) by (rewrite Z.land_spec, T, Z.pow2_bits_true by lia; reflexivity).
      rewrite K, Z.bits_0 in H0. discriminate. }
  intros s o N. unfold use_bb_option. destruct o; try congruence;
  match goal with |- context[bb_value ?x] => change (bb_value x) with (2 ^ bb_bit_of x)%Z end; apply G; vm_compute; discriminate.
Qed.
Lemma final_app : forall a b n, final (a ++ b) n = match final b n with Some v => Some v | None => final a n end.
Proof.
  induction a as [|c a IH]; intros b n; cbn [app final]; [destruct (final b n); reflexivity|].
  rewrite IH. destruct (final b n); reflexivity.
Qed.
Lemma final_when : forall (b : bool) l n, final (when b l) n = if b then final l n else None.
Proof. intros [] l n; reflexivity. Qed.
Lemma final_pos : forall (s : Z) (l : list call) n, final (if (s <=? 0)%Z then [] else l) n = if (0 <? s)%Z then final l n else None.
Proof. intros s l n. destruct (Z.leb_spec s 0), (Z.ltb_spec 0 s); try lia; reflexivity. Qed.
Lemma set_iff_intro : forall l n v (b c : bool) P, final l n = (if b then if c then Some v else None else None) -> (P <-> b = true /\ c = true) ->
  set_exactly_if l n v P.
Proof.
  intros l n v b c P E H. unfold set_exactly_if. rewrite E.
  split; intro K; [apply H in K as [-> ->]; reflexivity|]. destruct b, c; try reflexivity. exfalso. apply K, H. auto.
Qed.
Lemma set_iff_intro1 : forall l n v (b : bool) P, final l n = (if b then Some v else None) -> (P <-> b = true) -> set_exactly_if l n v P.
Proof. intros l n v b P E H. apply (set_iff_intro l n v b true P); [rewrite E; destruct b; reflexivity|]. rewrite H. intuition auto. Qed.
Lemma unbounded_spec : forall q, negb (unbounded q) = true <-> is_bounded q.
Proof.
  intro q. unfold unbounded, is_bounded, isInfinity_default. rewrite negb_true_iff, <- not_true_iff_false.
  rewrite isInfinity_iff_l by reflexivity. split; intro H; [apply Qnot_lt_le, H|apply Qle_not_lt, H].
Qed.
Lemma on_iff : forall s o, o <> off -> on s (bb_bit_of o) <-> (0 <? s)%Z = true /\ use_bb_option s o = true.
Proof. intros s o N. unfold on. rewrite use_bit by exact N. rewrite Z.ltb_lt. reflexivity. Qed.
Lemma reads_app : forall a b f, In (CRead f) (a ++ b) <-> In (CRead f) a \/ In (CRead f) b.
Proof. intros. apply in_app_iff. Qed.
Lemma in_when : forall {A} (b : bool) l (c : A), In c (when b l) <-> b = true /\ In c l.
Proof. intros A [] l c; cbn [when In]; intuition discriminate. Qed.
Lemma has_ext_iff : forall f e, has_ext f e = true <-> exists p, p <> [] /\ f = p ++ e.
Proof.
  intros f e. unfold has_ext. rewrite andb_true_iff, Nat.ltb_lt, text_eqb_eq. split.
  - intros [L E]. exists (firstn (List.length f - List.length e) f). split.
    + intro K. apply (f_equal (@List.length ascii)) in K. rewrite firstn_length in K. cbn [List.length] in K. lia.
    + etransitivity; [symmetry; apply firstn_skipn|]. f_equal. exact E.
  - intros (p & N & ->). rewrite app_length. split; [destruct p; [congruence|cbn [List.length]; lia]|].
    replace (List.length p + List.length e - List.length e)%nat with (List.length p) by lia.
    rewrite skipn_app, Nat.sub_diag, skipn_all. reflexivity.
Qed.
Lemma start_iff : forall solver f, existsb (has_ext f) (start_exts solver) = true <-> start_file solver f.
Proof.
  intros solver f. rewrite existsb_exists. unfold start_exts, start_file. split.
  - intros (x & H & E). apply in_map_iff in H as (e & <- & He). apply has_ext_iff in E as (p & N & E). exists e, p. auto.
  - intros (e & p & H & N & E). exists (txt ("_" ++ solver ++ e)%string). split; [apply in_map_iff; exists e; auto|].
    apply has_ext_iff. exists p. auto.
Qed.

Lemma if_none : forall {A} (b : bool), (if b then None else None) = @None A. Proof. intros A []; reflexivity. Qed.
Lemma final_nil : forall n, final [] n = None. Proof. reflexivity. Qed.
Lemma final_if : forall (b : bool) l l' n, final (if b then l else l') n = if b then final l n else final l' n.
Proof. intros [] l l' n; reflexivity. Qed.
Ltac spread := repeat first [rewrite final_app | rewrite final_pos | rewrite final_when | rewrite final_if]; reflexivity.
Ltac fin F := rewrite F; clear F;
  cbn [final map cplex_cut_kinds cplex_cut String.append String.eqb Ascii.eqb Bool.eqb]; rewrite ?if_none; cbn [final]; rewrite ?if_none;
  repeat match goal with |- context[if ?b then _ else _] => match type of b with bool => lazymatch b with andb ?x _ => destruct x; cbn [andb] | _ => destruct b; cbn [andb] end end end; reflexivity.
Ltac names_in := repeat match goal with
  | H : In _ (_ ++ _) |- _ => apply in_app_iff in H; destruct H as [H|H]
  | H : In _ (when _ _) |- _ => apply in_when in H; destruct H as [_ H]
  | H : In _ (if ?b then _ else _) |- _ => destruct b
  | H : In _ (_ :: _) |- _ => cbn [In] in H; destruct H as [H|H]
  | H : In _ [] |- _ => destruct H
  | H : _ = _ \/ _ |- _ => destruct H as [H|H]
  | H : False |- _ => destruct H
  end.
Lemma on_user_cuts : forall s, on s b_user_cuts <-> (0 <? s)%Z = true /\ use_bb_option s user_cuts = true. Proof. intro s. apply (on_iff s user_cuts). discriminate. Qed.
Lemma on_all_cuts_off : forall s, on s b_all_cuts_off <-> (0 <? s)%Z = true /\ use_bb_option s all_cuts_off = true. Proof. intro s. apply (on_iff s all_cuts_off). discriminate. Qed.
Lemma on_presolve_off : forall s, on s b_presolve_off <-> (0 <? s)%Z = true /\ use_bb_option s presolve_off = true. Proof. intro s. apply (on_iff s presolve_off). discriminate. Qed.
Lemma on_heuristics_off : forall s, on s b_heuristics_off <-> (0 <? s)%Z = true /\ use_bb_option s heuristics_off = true. Proof. intro s. apply (on_iff s heuristics_off). discriminate. Qed.
Lemma on_use_best_bound : forall s, on s b_use_best_bound <-> (0 <? s)%Z = true /\ use_bb_option s use_best_bound = true. Proof. intro s. apply (on_iff s use_best_bound). discriminate. Qed.
Lemma strong_bit : forall s, Z.testbit s b_strong = true <-> use_bb_option s strong_branching_on = true.
Proof. intro s. rewrite (use_bit s strong_branching_on) by discriminate. reflexivity. Qed.

(** ** Gurobi's settings. *)
(** Each option of the strategy sets the parameter it stands for, and nothing else does; a start file is read exactly when
    the best bound is used and the file is named as a start file. *)
Theorem gurobi_settings : forall k s best, let l := gurobi_calls k s best in
  final l "TimeLimit" = Some (bc_time k) /\ final l "Threads" = Some 1 /\
  set_exactly_if l "Seed" (inject_Z (bc_seed k)) (0 <= bc_seed k)%Z /\
  final l "OutputFlag" = Some (if (bc_verbosity k =? 0)%Z then 0 else 1) /\
  set_exactly_if l "PreCrush" 1 (on s b_user_cuts) /\
  set_exactly_if l "Cuts" 0 (on s b_all_cuts_off) /\
  set_exactly_if l "Presolve" 0 (on s b_presolve_off) /\
  set_exactly_if l "Heuristics" 0 (on s b_heuristics_off) /\
  set_exactly_if l "BestBdStop" (best - EPS7) (on s b_use_best_bound /\ is_bounded best) /\
  set_exactly_if l "VarBranch" 3 (Z.testbit (Z.abs s) b_strong = true) /\
  (forall f, In (CRead f) l <-> on s b_use_best_bound /\ f = bc_solfile k /\ start_file "gurobi" f) /\
  only_names l ["TimeLimit"; "Threads"; "Seed"; "OutputFlag"; "DisplayInterval"; "PreCrush"; "Cuts"; "Presolve"; "Heuristics";
                "BestBdStop"; "VarBranch"]%string.
Proof.
  intros k s best. cbv zeta.
  eassert (F : forall n, final (gurobi_calls k s best) n = _) by (intro n; unfold gurobi_calls; spread).
  split; [fin F|]. split; [fin F|].
  split; [apply (set_iff_intro1 _ _ _ (0 <=? bc_seed k)%Z); [fin F|symmetry; apply Z.leb_le]|].
  split; [fin F|].
  split; [apply (set_iff_intro _ _ _ (0 <? s)%Z (use_bb_option s user_cuts)); [fin F|apply on_user_cuts]|].
  split; [apply (set_iff_intro _ _ _ (0 <? s)%Z (use_bb_option s all_cuts_off)); [fin F|apply on_all_cuts_off]|].
  split; [apply (set_iff_intro _ _ _ (0 <? s)%Z (use_bb_option s presolve_off)); [fin F|apply on_presolve_off]|].
  split; [apply (set_iff_intro _ _ _ (0 <? s)%Z (use_bb_option s heuristics_off)); [fin F|apply on_heuristics_off]|].
  split; [apply (set_iff_intro _ _ _ ((0 <? s)%Z && use_bb_option s use_best_bound) (negb (unbounded best)));
          [fin F|rewrite andb_true_iff, on_use_best_bound, unbounded_spec; reflexivity]|].
  split; [apply (set_iff_intro1 _ _ _ (use_bb_option (Z.abs s) strong_branching_on)); [fin F|apply strong_bit]|].
  split.
  - intro f. rewrite on_use_best_bound, <- start_iff. unfold gurobi_calls. split.
    + intro H. destruct (Z.leb_spec s 0) as [L|L].
      * exfalso. names_in; discriminate.
      * assert (P : (0 <? s)%Z = true) by (apply Z.ltb_lt; lia).
        repeat (apply in_app_iff in H; destruct H as [H|H]); try (exfalso; names_in; discriminate).
        apply in_when in H as [U H]. apply in_app_iff in H as [H|H]; [exfalso; names_in; discriminate|].
        apply in_when in H as [E H]. destruct H as [H|[]]. injection H as <-. auto.
    + intros ([P U] & -> & E). apply Z.ltb_lt in P. destruct (Z.leb_spec s 0) as [L|L]; [lia|].
      do 3 (apply in_or_app; right). apply in_or_app; left. do 4 (apply in_or_app; right).
      apply in_when; split; [exact U|]. apply in_or_app; right. apply in_when; split; [exact E|left; reflexivity].
  - intros n v H. unfold gurobi_calls in H. names_in; try discriminate; injection H as <- <-; cbn [In]; tauto.
Qed.
Print Assumptions gurobi_settings.

(** ** CPLEX' settings. *)
Lemma final_cuts : forall L n v, final (map (fun n => CSet (cplex_cut n) v) L) (cplex_cut n) = if existsb (String.eqb n) L then Some v else None.
Proof.
  induction L as [|a L IH]; intros n v; [reflexivity|]. cbn [map final existsb]. rewrite IH.
  destruct (existsb (String.eqb n) L); [rewrite orb_true_r; reflexivity|]. rewrite orb_false_r.
  unfold cplex_cut at 1 2. cbn [String.append String.eqb Ascii.eqb Bool.eqb]. rewrite (String.eqb_sym a n). reflexivity.
Qed.
Lemma final_cuts_other : forall L n v, (forall m, In m L -> cplex_cut m <> n) -> final (map (fun n => CSet (cplex_cut n) v) L) n = None.
Proof.
  induction L as [|a L IH]; intros n v H; [reflexivity|]. cbn [map final]. rewrite IH by (intros m Hm; apply H; right; exact Hm).
  destruct (String.eqb_spec (cplex_cut a) n) as [E|_]; [|reflexivity]. exfalso. apply (H a); [left; reflexivity|exact E].
Qed.
Lemma same_cuts n : In n all_cplex_cuts <-> In n (map cplex_cut cplex_cut_kinds).
Proof. unfold all_cplex_cuts, cplex_cut_kinds, cplex_cut. cbn [map In String.append]. tauto. Qed.
Theorem cplex_settings : forall k s best, let l := cplex_calls k s best in
  final l "TimeLimit" = Some (bc_time k) /\ final l "Threads" = Some 1 /\
  set_exactly_if l "RandomSeed" (inject_Z (bc_seed k)) (0 <= bc_seed k)%Z /\
  final l "ScreenOutput" = Some (if (bc_verbosity k =? 0)%Z then 0 else 1) /\
  set_exactly_if l "Preprocessing_Linear" 0 (on s b_user_cuts) /\
  (forall n, In n all_cplex_cuts -> set_exactly_if l n (-(1)) (on s b_all_cuts_off)) /\
  set_exactly_if l "Preprocessing_Presolve" 0 (on s b_presolve_off) /\
  (forall n v, In (n, v) [("HeuristicEffort", 0); ("HeuristicFreq", -(1)); ("FPHeur", -(1)); ("LBHeur", 0); ("RINSHeur", 0)]%string ->
     set_exactly_if l ("MIP_Strategy_" ++ n)%string v (on s b_heuristics_off)) /\
  set_exactly_if l "MIP_Tolerances_UpperCutoff" (best + EPS7) (on s b_use_best_bound /\ is_bounded best) /\
  set_exactly_if l "MIP_Strategy_VariableSelect" 3 (Z.testbit (Z.abs s) b_strong = true) /\
  (forall f, In (CRead f) l <-> on s b_use_best_bound /\ f = bc_solfile k /\ start_file "cplex" f) /\
  set_exactly_if l "Advance" 1 (exists f, In (CRead f) l) /\
  only_names l (["TimeLimit"; "Threads"; "RandomSeed"; "ScreenOutput"; "MIP_Display"; "MIP_Interval"; "Preprocessing_Linear";
                 "Preprocessing_Presolve"; "MIP_Strategy_HeuristicEffort"; "MIP_Strategy_HeuristicFreq"; "MIP_Strategy_FPHeur";
                 "MIP_Strategy_LBHeur"; "MIP_Strategy_RINSHeur"; "MIP_Tolerances_UpperCutoff"; "Advance"; "MIP_Strategy_VariableSelect";
                 "MIP_Limits_StrongCand"; "MIP_Limits_StrongIt"; "MIP_Strategy_BBInterval"]%string ++ all_cplex_cuts).
Proof.
  intros k s best. cbv zeta.
  eassert (F : forall n, final (cplex_calls k s best) n = _) by (intro n; unfold cplex_calls; spread).
  split; [fin F|]. split; [fin F|].
  split; [apply (set_iff_intro1 _ _ _ (0 <=? bc_seed k)%Z); [fin F|symmetry; apply Z.leb_le]|].
  split; [fin F|].
  split; [apply (set_iff_intro _ _ _ (0 <? s)%Z (use_bb_option s user_cuts)); [fin F|apply on_user_cuts]|].
  split.
  { intros n0 H0. destruct (same_cuts n0) as [SC _]. destruct (proj1 (in_map_iff _ _ _) (SC H0)) as (n & <- & H). clear H0 SC.
    apply (set_iff_intro _ _ _ (0 <? s)%Z (use_bb_option s all_cuts_off)); [|apply on_all_cuts_off].
    assert (K : existsb (String.eqb n) cplex_cut_kinds = true) by (apply existsb_exists; exists n; split; [exact H|apply String.eqb_refl]).
    rewrite F; clear F; rewrite final_cuts, K; unfold cplex_cut; cbn [final String.append String.eqb Ascii.eqb Bool.eqb]; rewrite ?if_none; cbn [final]; rewrite ?if_none;
      destruct (0 <? s)%Z, (use_bb_option s all_cuts_off), (bc_verbosity k =? 0)%Z; reflexivity. }
  split; [apply (set_iff_intro _ _ _ (0 <? s)%Z (use_bb_option s presolve_off)); [fin F|apply on_presolve_off]|].
  split.
  { intros n v H. apply (set_iff_intro _ _ _ (0 <? s)%Z (use_bb_option s heuristics_off)); [|apply on_heuristics_off].
    cbn [In] in H.
    repeat match type of H with _ \/ _ => destruct H as [H|H] end; [..|destruct H]; injection H as <- <-; cbn [String.append]; fin F. }
  split; [apply (set_iff_intro _ _ _ ((0 <? s)%Z && use_bb_option s use_best_bound) (negb (unbounded best)));
          [fin F|rewrite andb_true_iff, on_use_best_bound, unbounded_spec; reflexivity]|].
  split; [apply (set_iff_intro1 _ _ _ (use_bb_option (Z.abs s) strong_branching_on)); [fin F|apply strong_bit]|].
  assert (R : forall f, In (CRead f) (cplex_calls k s best) <-> on s b_use_best_bound /\ f = bc_solfile k /\ start_file "cplex" f).
  { intro f. rewrite on_use_best_bound, <- start_iff. unfold cplex_calls. split.
    + intro H. destruct (Z.leb_spec s 0) as [L|L].
      * exfalso. names_in; discriminate.
      * assert (P : (0 <? s)%Z = true) by (apply Z.ltb_lt; lia).
        repeat (apply in_app_iff in H; destruct H as [H|H]);
          try (exfalso; names_in; try discriminate; apply in_map_iff in H as (? & H & _); discriminate).
        apply in_when in H as [U H]. apply in_app_iff in H as [H|H]; [exfalso; names_in; discriminate|].
        apply in_when in H as [E H]. destruct H as [H|[H|[]]]; [discriminate|]. injection H as <-. auto.
    + intros ([P U] & -> & E). apply Z.ltb_lt in P. destruct (Z.leb_spec s 0) as [L|L]; [lia|].
      do 3 (apply in_or_app; right). apply in_or_app; left. do 4 (apply in_or_app; right).
      apply in_when; split; [exact U|]. apply in_or_app; right. apply in_when; split; [exact E|right; left; reflexivity]. }
  split; [exact R|].
  split.
  { apply (set_iff_intro _ _ _ ((0 <? s)%Z && use_bb_option s use_best_bound) (existsb (has_ext (bc_solfile k)) (start_exts "cplex"))).
    - fin F.
    - rewrite andb_true_iff, <- on_use_best_bound, start_iff. split.
      + intros [f G]. apply R in G as (F1 & -> & F3). auto.
      + intros [G1 G2]. exists (bc_solfile k). apply R. auto. }
  intros n v H. unfold cplex_calls in H. apply in_or_app. names_in; try discriminate;
    try (left; injection H as <- <-; cbn [In]; tauto).
  right. apply in_map_iff in H as (m & H & I). injection H as <- _. apply same_cuts, in_map, I.
Qed.
Print Assumptions cplex_settings.


Example settings_meet :
  let k := {| bc_time := 60; bc_seed := 7; bc_verbosity := 1; bc_solfile := txt "bm23_gurobi.sol" |} in
  let s := 8760%Z in (* gurobi, user_cuts, all_cuts_off, presolve_off, use_best_bound *)
  on s b_user_cuts /\ on s b_all_cuts_off /\ on s b_presolve_off /\ on s b_use_best_bound /\ is_bounded 34 /\ start_file "gurobi" (bc_solfile k) /\
  final (gurobi_calls k s 34) "PreCrush" = Some 1 /\ final (gurobi_calls k s 34) "Heuristics" = None /\
  In (CRead (txt "bm23_gurobi.sol")) (gurobi_calls k s 34) /\
  ~ In (CRead (txt "bm23_gurobi.sol")) (cplex_calls k s 34) /\ final (cplex_calls k s 34) "MIP_Cuts_Gomory" = Some (-(1)).
Proof.
  cbv zeta. assert (B : is_bounded 34) by (vm_compute; discriminate). assert (B' : unbounded 34 = false) by (vm_compute; reflexivity).
  do 4 (split; [split; [lia|reflexivity]|]). split; [exact B|].
  split; [exists ".sol"%string, (txt "bm23"); split; [right; left; reflexivity|split; [discriminate|reflexivity]]|].
  split; [vm_compute; reflexivity|]. split; [vm_compute; reflexivity|].
  split; [apply gurobi_settings; split; [split; [lia|reflexivity]|split; [reflexivity|]]; exists ".sol"%string, (txt "bm23"); split; [right; left; reflexivity|split; [discriminate|reflexivity]]|].
  split; [|vm_compute; reflexivity].
  intro H. apply cplex_settings in H as (_ & _ & H). apply start_iff in H. vm_compute in H. discriminate.
Qed.

(** ** Cbc's settings. *)
(** The best bound, a start file, the heuristics and user cuts make no difference for Cbc. *)
Theorem cbc_settings : forall k n s best, let l := cbc_calls k n s best in
  final l "MaximumSeconds" = Some (bc_time k) /\ final l "RandomSeed" = Some (inject_Z (bc_seed k)) /\
  set_exactly_if l "StrategyDefault" 1 (s <= 0)%Z /\
  (forall m, In m ["MaximumCutPassesAtRoot"; "MaximumCutPasses"; "WhenCuts"]%string -> set_exactly_if l m 0 (on s b_all_cuts_off)) /\
  set_exactly_if l "TypePresolve" 0 (on s b_presolve_off) /\
  set_exactly_if l "NumberStrong" (inject_Z (Z.of_nat n)) (Z.testbit (Z.abs s) b_strong = true) /\
  (forall f, ~ In (CRead f) l) /\
  only_names l ["MaximumSeconds"; "RandomSeed"; "StrategyDefault"; "MaximumCutPassesAtRoot"; "MaximumCutPasses"; "WhenCuts";
                "TypePresolve"; "NumberStrong"]%string.
Proof.
  intros k n s best. cbv zeta.
  eassert (F : forall m, final (cbc_calls k n s best) m = _) by (intro m; unfold cbc_calls; repeat first [rewrite final_app | rewrite final_when | rewrite final_if]; reflexivity).
  assert (Z0 : (0 <? s)%Z = negb (s <=? 0)%Z) by (destruct (Z.ltb_spec 0 s), (Z.leb_spec s 0); try lia; reflexivity).
  split; [fin F|]. split; [fin F|].
  split; [apply (set_iff_intro1 _ _ _ (s <=? 0)%Z); [fin F|symmetry; apply Z.leb_le]|].
  split.
  { intros m H. apply (set_iff_intro _ _ _ (0 <? s)%Z (use_bb_option s all_cuts_off)); [|apply on_all_cuts_off]. rewrite Z0.
    destruct H as [<-|[<-|[<-|[]]]]; rewrite F; clear F; cbn [final String.eqb Ascii.eqb Bool.eqb]; rewrite ?if_none;
      destruct (s <=? 0)%Z, (use_bb_option s all_cuts_off); reflexivity. }
  split.
  { apply (set_iff_intro _ _ _ (0 <? s)%Z (use_bb_option s presolve_off)); [|apply on_presolve_off]. rewrite Z0, F; clear F;
      cbn [final String.eqb Ascii.eqb Bool.eqb]; rewrite ?if_none; destruct (s <=? 0)%Z, (use_bb_option s presolve_off); reflexivity. }
  split; [apply (set_iff_intro1 _ _ _ (use_bb_option (Z.abs s) strong_branching_on)); [fin F|apply strong_bit]|].
  split.
  - intros f H. unfold cbc_calls in H. names_in; discriminate.
  - intros m v H. unfold cbc_calls in H. names_in; injection H as <- <-; cbn [In]; tauto.
Qed.
Print Assumptions cbc_settings.

(** "heuristics_off turns the heuristics off and use_best_bound gives the bound, whichever solver": with Cbc both are ignored. *)
Theorem cbc_options_refuted : forall k n s best best', (0 < s)%Z ->
  cbc_calls k n s best = cbc_calls k n (Z.lor s (2 ^ b_heuristics_off)) best' /\
  cbc_calls k n s best = cbc_calls k n (Z.lor s (2 ^ b_use_best_bound)) best'.
Proof.
  intros k n s best best' P.
  assert (G : forall b, (0 <= b)%Z -> b <> b_all_cuts_off -> b <> b_presolve_off -> b <> b_strong ->
            cbc_calls k n s best = cbc_calls k n (Z.lor s (2 ^ b)) best').
  { intros b B B1 B2 B3. assert (L : (0 < Z.lor s (2 ^ b))%Z).
    { assert (0 <= Z.lor s (2 ^ b))%Z by (apply Z.lor_nonneg; split; [lia|apply Z.pow_nonneg; lia]).
      destruct (Z.eq_dec (Z.lor s (2 ^ b)) 0) as [E|]; [|lia]. apply Z.lor_eq_0_iff in E. lia. }
    assert (T : forall i, (0 <= i)%Z -> i <> b -> Z.testbit (Z.lor s (2 ^ b)) i = Z.testbit s i).
    { intros i I D. rewrite Z.lor_spec, Z.pow2_bits_false by lia. apply orb_false_r. }
    unfold cbc_calls. rewrite !Z.abs_eq by lia.
    replace (Z.lor s (2 ^ b) <=? 0)%Z with false by (symmetry; apply Z.leb_gt; exact L).
    replace (s <=? 0)%Z with false by (symmetry; apply Z.leb_gt; exact P).
    rewrite !use_bit by discriminate.
    change (bb_bit_of all_cuts_off) with b_all_cuts_off; change (bb_bit_of presolve_off) with b_presolve_off; change (bb_bit_of strong_branching_on) with b_strong.
    rewrite !T by (unfold b_all_cuts_off, b_presolve_off, b_strong in *; lia). reflexivity. }
  split; apply G; (discriminate || (vm_compute; discriminate)).
Qed.
Print Assumptions cbc_options_refuted.

(** Two strategies with the same sign that agree on the options the solver knows are the same to it: "cuts on", "presolve on",
    "heuristics on" and the two options for GMICs do nothing. *)
Theorem other_options_ignored : forall k n s s' best,
  (0 < s <-> 0 < s')%Z ->
  (forall b, In b [b_user_cuts; b_all_cuts_off; b_presolve_off; b_heuristics_off; b_use_best_bound] -> Z.testbit s b = Z.testbit s' b) ->
  Z.testbit (Z.abs s) b_strong = Z.testbit (Z.abs s') b_strong ->
  gurobi_calls k s best = gurobi_calls k s' best /\ cplex_calls k s best = cplex_calls k s' best /\ cbc_calls k n s best = cbc_calls k n s' best.
Proof.
  intros k n s s' best P B A.
  assert (P' : (s <=? 0)%Z = (s' <=? 0)%Z) by (destruct (Z.leb_spec s 0), (Z.leb_spec s' 0); try reflexivity; lia).
  assert (B' : forall o, In o [user_cuts; all_cuts_off; presolve_off; heuristics_off; use_best_bound] -> use_bb_option s o = use_bb_option s' o).
  { intros o H. rewrite !use_bit by (intros ->; cbn [In] in H; intuition discriminate). apply B.
    cbn [In] in H |- *. repeat destruct H as [<-|H]; try (destruct H); vm_compute; tauto. }
  assert (A' : use_bb_option (Z.abs s) strong_branching_on = use_bb_option (Z.abs s') strong_branching_on) by (rewrite !use_bit by discriminate; exact A).
  unfold gurobi_calls, cplex_calls, cbc_calls. rewrite P', A'.
  rewrite (B' user_cuts), (B' all_cuts_off), (B' presolve_off), (B' heuristics_off), (B' use_best_bound) by (cbn [In]; tauto).
  split; [reflexivity|split; reflexivity].
Qed.
Print Assumptions other_options_ignored.

(** ** Which solver, and which strategy. *)
Theorem solver_chosen : forall s,
  (chosen_solver s = Some Gurobi <-> Z.testbit s b_gurobi = true) /\
  (chosen_solver s = Some Cplex <-> Z.testbit s b_gurobi = false /\ Z.testbit s b_cplex = true) /\
  (chosen_solver s = Some Cbc <-> Z.testbit s b_gurobi = false /\ Z.testbit s b_cplex = false /\ Z.testbit s b_cbc = true).
Proof.
  intro s. unfold chosen_solver. rewrite !use_bit by discriminate.
  change (bb_bit_of gurobi) with b_gurobi; change (bb_bit_of cplex) with b_cplex; change (bb_bit_of cbc) with b_cbc.
  destruct (Z.testbit s b_gurobi), (Z.testbit s b_cplex), (Z.testbit s b_cbc); intuition discriminate.
Qed.
Print Assumptions solver_chosen.

(** "A negative strategy is the default strategy, with strong branching if its absolute value says so" (strategy <= 0 ... std::abs(strategy)):
    it is the options of the negative number itself that choose the solver, so minus "Cbc with strong branching" runs Gurobi. *)
Theorem negative_strategy_refuted : exists v : Z,
  chosen_solver v = Some Cbc /\ Z.testbit (Z.abs (-v)) b_strong = true /\ chosen_solver (-v) = Some Gurobi.
Proof. exists 16386%Z. split; [reflexivity|split; reflexivity]. Qed.
Print Assumptions negative_strategy_refuted.

(** A run with user cuts has the option user_cuts and otherwise the given options; so the solver is told about user cuts
    whenever the strategy is not negative, and never when it is. *)
Theorem user_cuts_run : forall k s best, 
  (forall b, (0 <= b)%Z -> Z.testbit (user_cuts_strategy s) b = (Z.testbit s b || (b =? b_user_cuts)%Z)%bool) /\
  (final (gurobi_calls k (user_cuts_strategy s) best) "PreCrush" = Some 1 <-> (0 <= s)%Z) /\
  (final (cplex_calls k (user_cuts_strategy s) best) "Preprocessing_Linear" = Some 0 <-> (0 <= s)%Z).
Proof.
  intros k s best.
  assert (T : forall b, (0 <= b)%Z -> Z.testbit (user_cuts_strategy s) b = (Z.testbit s b || (b =? b_user_cuts)%Z)%bool).
  { intros b H. unfold user_cuts_strategy. destruct (use_bb_option s user_cuts) eqn:U.
    - rewrite use_bit in U by discriminate. change (bb_bit_of user_cuts) with b_user_cuts in U.
      destruct (Z.eqb_spec b b_user_cuts) as [->|]; [rewrite U; reflexivity|symmetry; apply orb_false_r].
    - unfold enable_bb_option. rewrite Z.lor_spec. f_equal. change (bb_value user_cuts) with (2 ^ b_user_cuts)%Z.
      rewrite Z.pow2_bits_eqb by (unfold b_user_cuts; lia). apply Z.eqb_sym. }
  assert (N : (0 <= s <-> on (user_cuts_strategy s) b_user_cuts)%Z).
  { unfold on. rewrite T by (unfold b_user_cuts; lia). rewrite Z.eqb_refl, orb_true_r.
    assert (K : user_cuts_strategy s = Z.lor s 16).
    { apply Z.bits_inj'. intros b H. rewrite T by exact H. rewrite Z.lor_spec. f_equal. change 16%Z with (2 ^ b_user_cuts)%Z.
      rewrite Z.pow2_bits_eqb by (unfold b_user_cuts; lia). apply Z.eqb_sym. }
    rewrite K. split.
    - intro H. split; [|reflexivity]. assert (0 <= Z.lor s 16)%Z by (apply Z.lor_nonneg; lia).
      destruct (Z.eq_dec (Z.lor s 16) 0) as [E|]; [|lia]. apply Z.lor_eq_0_iff in E as [_ E]. discriminate.
    - intros [H _]. assert (0 <= Z.lor s 16)%Z by lia. apply Z.lor_nonneg in H0. lia. }
  split; [exact T|].
  split; rewrite N; split; intro H.
  - destruct (gurobi_settings k (user_cuts_strategy s) best) as (_ & _ & _ & _ & [G1 G2] & _).
    destruct (Z_lt_dec 0 (user_cuts_strategy s)) as [Y|Y], (bool_dec (Z.testbit (user_cuts_strategy s) b_user_cuts) true) as [W|W];
      [split; assumption|..]; rewrite G2 in H by (intros [? ?]; contradiction); discriminate.
  - apply gurobi_settings, H.
  - destruct (cplex_settings k (user_cuts_strategy s) best) as (_ & _ & _ & _ & [G1 G2] & _).
    destruct (Z_lt_dec 0 (user_cuts_strategy s)) as [Y|Y], (bool_dec (Z.testbit (user_cuts_strategy s) b_user_cuts) true) as [W|W];
      [split; assumption|..]; rewrite G2 in H by (intros [? ?]; contradiction); discriminate.
  - apply cplex_settings, H.
Qed.
Print Assumptions user_cuts_run.

(** ** Random seeds of repeated runs. *)
Theorem seeds : forall given runs, (0 < given)%Z -> (given * Z.of_nat runs < 2 ^ 31)%Z ->
  (forall k, (k < runs)%nat -> run_seed given k = Some (given * (Z.of_nat k + 1))%Z) /\
  (forall j k, (j < runs)%nat -> (k < runs)%nat -> run_seed given j = run_seed given k -> j = k).
Proof.
  intros g n P B.
  assert (A : forall k, (k < n)%nat -> run_seed g k = Some (g * (Z.of_nat k + 1))%Z).
  { intros k K. unfold run_seed, wrap32. assert (0 <= g * (Z.of_nat k + 1) < 2 ^ 31)%Z by nia.
    rewrite Z.mod_small by lia. rewrite Z.add_simpl_r. destruct (Z.ltb_spec (g * (Z.of_nat k + 1)) (-1)); [lia|reflexivity]. }
  split; [exact A|]. intros j k J K E. rewrite !A in E by assumption. injection E as E. nia.
Qed.
Print Assumptions seeds.
(** "Any seed the parameter accepts can be used for any number of runs": a seed of 2^30 ends the program in the second run. *)
Theorem seeds_refuted : is_int (2 ^ 30) /\ run_seed (2 ^ 30) 0 = Some (2 ^ 30)%Z /\ run_seed (2 ^ 30) 1 = None.
Proof. split; [vm_compute; split; [discriminate|reflexivity || discriminate]|]. split; reflexivity. Qed.
Print Assumptions seeds_refuted.
Example seeds_meet : (0 < 628)%Z /\ (628 * Z.of_nat 7 < 2 ^ 31)%Z /\ run_seed 628 6 = Some 4396%Z.
Proof. split; [lia|split; [lia|reflexivity]]. Qed.

(** ** Cuts. *)
(** Gurobi: the cuts handed over are the cuts given, each of them ">= rhs"; "lazy" hands the same inequalities over again. *)
Theorem gurobi_handed : forall l lazy x, (forall c, In c l -> oc_ub c = None /\ oc_lb c <> None) ->
  (Forall (fun r => ge_holds r x) (gurobi_cuts (Some l) lazy) <-> Forall (fun c => cut_holds c x) l) /\
  List.length (gurobi_cuts (Some l) lazy) = (if lazy then 2 * List.length l else List.length l)%nat /\
  gurobi_cuts None lazy = [].
Proof.
  intros l lazy x H. split; [|split; [|reflexivity]].
  - unfold gurobi_cuts. induction l as [|c l IH]; [split; constructor|]. cbn [flat_map].
    assert (E : ge_holds (handed c) x <-> cut_holds c x).
    { destruct (H c (or_introl eq_refl)) as [U L]. unfold ge_holds, cut_holds, handed, oc_rhs, rowRHS. cbn [fst snd rlo rup]. rewrite U.
      destruct (oc_lb c) as [b|]; [cbn [above below]; tauto|contradiction]. }
    rewrite Forall_app, Forall_cons_iff, (Forall_cons_iff (fun c => cut_holds c x)), IH, E by (intros d D; apply H; right; exact D).
    destruct lazy; cbn [when]; [rewrite Forall_cons_iff, E|]; intuition auto.
  - clear H. unfold gurobi_cuts. induction l as [|c l IH]; [destruct lazy; reflexivity|]. cbn [flat_map List.length]. rewrite app_length, IH.
    destruct lazy; cbn [when List.length app]; lia.
Qed.
Print Assumptions gurobi_handed.
(** "for any row cuts": a "<=" cut is handed over with its direction reversed. *)
Theorem gurobi_handed_refuted : exists c x, cut_holds c x /\ ~ Forall (fun r => ge_holds r x) (gurobi_cuts (Some [c]) false).
Proof.
  exists {| oc_row := [(0%nat, 1)]; oc_lb := None; oc_ub := Some 1 |}, (fun _ => 0). split; [split; [exact Logic.I|vm_compute; discriminate]|].
  intro H. inversion H as [|? ? K _]. apply K. reflexivity.
Qed.
Print Assumptions gurobi_handed_refuted.

(** CPLEX: the arrays hold exactly the cuts given, in their order, each as ">= rhs". *)
Theorem cplex_handed : forall l, let a := cpx_cuts l in
  List.length (cx_beg a) = List.length l /\ List.length (cx_rhs a) = List.length l /\ List.length (cx_sense a) = List.length l /\
  List.length (cx_val a) = List.length (cx_ind a) /\
  (forall i, (i < List.length l)%nat -> nth i (cx_sense a) "?"%char = "G"%char) /\
  forall i c, nth_error l i = Some c -> cpx_row a i = oc_row c /\ nth i (cx_rhs a) 0 = oc_rhs c.
Proof.
  assert (SP : forall (r : packed), combine (map fst r) (map snd r) = r).
  { induction r as [|[j v] r IH]; [reflexivity|]. cbn [map combine fst snd]. rewrite IH. reflexivity. }
  assert (SL : forall A (u v : list A) b e, (e <= List.length u)%nat -> slice b e (u ++ v) = slice b e u).
  { intros A u v b e H. unfold slice. destruct (Nat.le_gt_cases e b) as [K|K]; [replace (e - b)%nat with O by lia; reflexivity|].
    rewrite skipn_app, firstn_app. replace (e - b - List.length (skipn b u))%nat with O by (rewrite skipn_length; lia).
    cbn [firstn]. apply app_nil_r. }
  assert (SR : forall A (u v : list A), slice (List.length u) (List.length u + List.length v) (u ++ v) = v).
  { intros A u v. unfold slice. rewrite skipn_app, skipn_all, Nat.sub_diag. cbn [app skipn].
    replace (List.length u + List.length v - List.length u)%nat with (List.length v) by lia. apply firstn_all. }
  intro l. cbv zeta. unfold cpx_cuts. set (a0 := {| cx_beg := [] |}).
  enough (G : Forall (fun b => b <= List.length (cx_ind (fold_left cpx_add l a0)))%nat (cx_beg (fold_left cpx_add l a0)) /\
    List.length (cx_beg (fold_left cpx_add l a0)) = List.length l /\ List.length (cx_rhs (fold_left cpx_add l a0)) = List.length l /\
    List.length (cx_sense (fold_left cpx_add l a0)) = List.length l /\
    List.length (cx_val (fold_left cpx_add l a0)) = List.length (cx_ind (fold_left cpx_add l a0)) /\
    (forall i, (i < List.length l)%nat -> nth i (cx_sense (fold_left cpx_add l a0)) "?"%char = "G"%char) /\
    forall i c, nth_error l i = Some c -> cpx_row (fold_left cpx_add l a0) i = oc_row c /\ nth i (cx_rhs (fold_left cpx_add l a0)) 0 = oc_rhs c) by apply G.
  induction l as [|c l IH] using rev_ind.
  - cbn. split; [constructor|]. repeat (split; [reflexivity|]). split; [intros i I; lia|]. intros [|i] c H; discriminate.
  - rewrite fold_left_app. cbn [fold_left].
    set (a := fold_left cpx_add l a0) in *. destruct IH as (B & L1 & L2 & L3 & L4 & SE & R).
    unfold cpx_add. cbn [cx_beg cx_ind cx_val cx_rhs cx_sense]. rewrite !app_length, !map_length. cbn [List.length].
    split.
    { apply Forall_app. split; [eapply Forall_impl; [|exact B]; cbv beta; intros b Hb; lia|constructor; [lia|constructor]]. }
    split; [lia|]. split; [lia|]. split; [change (List.length (txt "G")) with 1%nat; lia|]. split; [lia|]. split.
    { intros i I. destruct (Nat.lt_ge_cases i (List.length l)) as [K|K]; [rewrite app_nth1 by lia; apply SE, K|].
      rewrite app_nth2 by lia. replace (i - List.length (cx_sense a))%nat with O by lia. reflexivity. }
    intros i d H. destruct (Nat.lt_ge_cases i (List.length l)) as [K|K].
    + rewrite nth_error_app1 in H by exact K. destruct (R i d H) as [R1 R2]. split; [|rewrite app_nth1 by lia; exact R2].
      rewrite <- R1. unfold cpx_row. cbn [cx_beg cx_ind cx_val]. rewrite (app_nth1 (cx_beg a)) by lia.
      assert (E : nth (Datatypes.S i) (cx_beg a ++ [List.length (cx_ind a)]) (List.length (cx_ind a ++ map fst (oc_row c)))
                  = nth (Datatypes.S i) (cx_beg a) (List.length (cx_ind a))).
      { destruct (Nat.lt_ge_cases (Datatypes.S i) (List.length l)) as [K'|K'].
        - rewrite app_nth1 by lia. apply nth_indep. lia.
        - rewrite app_nth2 by lia. rewrite (nth_overflow (cx_beg a)) by lia. replace (Datatypes.S i - List.length (cx_beg a))%nat with O by lia. reflexivity. }
      rewrite E. assert (Hle : (nth (Datatypes.S i) (cx_beg a) (List.length (cx_ind a)) <= List.length (cx_ind a))%nat).
      { destruct (nth_in_or_default (Datatypes.S i) (cx_beg a) (List.length (cx_ind a))) as [N|N]; [|rewrite N; lia].
        rewrite Forall_forall in B. apply B, N. }
      rewrite !SL by lia. reflexivity.
    + assert (i = List.length l) as ->.
      { assert (W : (i < List.length (l ++ [c]))%nat) by (apply nth_error_Some; congruence). rewrite app_length in W. cbn [List.length] in W. lia. }
      rewrite nth_error_app2, Nat.sub_diag in H by lia. injection H as <-. split.
      * unfold cpx_row. cbn [cx_beg cx_ind cx_val].
        rewrite (@nth_overflow _ _ (Datatypes.S (List.length l))) by (rewrite app_length; cbn [List.length]; lia).
        rewrite app_nth2 by lia. replace (List.length l - List.length (cx_beg a))%nat with O by lia. cbn [nth].
        rewrite app_length, SR. rewrite map_length. rewrite <- L4 at 1 2.
        replace (List.length (oc_row c)) with (List.length (map snd (oc_row c))) by apply map_length. rewrite SR. apply SP.
      * rewrite app_nth2 by lia. replace (List.length l - List.length (cx_rhs a))%nat with O by lia. reflexivity.
Qed.
Print Assumptions cplex_handed.
Example handed_meet :
  let c1 := {| oc_row := [(0%nat, 1); (3%nat, 2)]; oc_lb := Some 1; oc_ub := None |} in
  let c2 := {| oc_row := [(1%nat, -(1))]; oc_lb := Some (-(2)); oc_ub := None |} in
  cpx_row (cpx_cuts [c1; c2]) 1 = oc_row c2 /\ cut_holds c1 (fun _ => 1) /\ ge_holds (handed c2) (fun _ => 1).
Proof. cbv zeta. split; [reflexivity|]. split; [split; [vm_compute; discriminate|exact Logic.I]|vm_compute; discriminate]. Qed.

(** ** Temporary files. *)
(** A run on a copy leaves the files that were there, and one more: the empty file made to get a name. *)
Theorem copy_files : forall tmp fs g, ~ In (tmp ++ copy_ext) fs ->
  (In g (on_copy tmp fs) <-> In g fs \/ g = tmp).
Proof.
  intros tmp fs g N. unfold on_copy. rewrite filter_In, negb_true_iff. cbn [In].
  assert (D : forall h, text_eqb h (tmp ++ copy_ext) = false <-> h <> tmp ++ copy_ext).
  { intro h. rewrite <- not_true_iff_false, text_eqb_eq. reflexivity. }
  rewrite D. split.
  - intros [[H|[H|H]] K]; [congruence|right; congruence|left; exact H].
  - intros [H| ->]; (split; [auto|]).
    + intros ->. contradiction.
    + intro E. apply (f_equal (@List.length ascii)) in E. rewrite app_length in E. cbn in E. lia.
Qed.
Print Assumptions copy_files.
(** "leaves no file behind". *)
Theorem no_file_left_refuted : forall tmp fs, ~ In tmp fs -> ~ In (tmp ++ copy_ext) fs -> exists g, In g (on_copy tmp fs) /\ ~ In g fs.
Proof. intros tmp fs N M. exists tmp. split; [apply copy_files; auto|exact N]. Qed.
Print Assumptions no_file_left_refuted.

(** The name of a copy ends with the extension; a name that ends with it is kept; a name that does not is extended. *)
Theorem extension : forall f ext, (List.length ext <= List.length f)%nat ->
  exists g, with_ext f ext = Some g /\ (exists p, g = p ++ ext) /\ (g = f \/ g = f ++ ext) /\
            ((exists p, f = p ++ ext) -> g = f) /\ with_ext g ext = Some g.
Proof.
  assert (A : forall f ext, (List.length ext <= List.length f)%nat -> text_eqb (skipn (List.length f - List.length ext) f) ext = true <-> exists p, f = p ++ ext).
  { intros f ext L. rewrite text_eqb_eq. split.
    - intro E. exists (firstn (List.length f - List.length ext) f). etransitivity; [symmetry; apply firstn_skipn|]. f_equal. exact E.
    - intros (p & ->). rewrite app_length. replace (List.length p + List.length ext - List.length ext)%nat with (List.length p) by lia.
      rewrite skipn_app, Nat.sub_diag, skipn_all. reflexivity. }
  assert (K : forall f ext, (List.length ext <= List.length f)%nat -> (exists p, f = p ++ ext) -> with_ext f ext = Some f).
  { intros f ext L E. unfold with_ext. destruct ext as [|c ext]; [reflexivity|].
    destruct (Nat.ltb_spec (List.length f) (List.length (c :: ext))); [lia|]. apply A in E; [|exact L]. rewrite E. reflexivity. }
  intros f ext L. destruct (text_eqb (skipn (List.length f - List.length ext) f) ext) eqn:E.
  - apply A in E; [|exact L]. exists f. split; [apply K; assumption|]. split; [exact E|]. split; [auto|]. split; [auto|]. apply K; assumption.
  - assert (X : ~ exists p, f = p ++ ext) by (intro X; apply A in X; [congruence|exact L]).
    exists (f ++ ext). split.
    + unfold with_ext. destruct ext as [|c ext]; [exfalso; apply X; exists f; symmetry; apply app_nil_r|].
      destruct (Nat.ltb_spec (List.length f) (List.length (c :: ext))); [lia|]. rewrite E. reflexivity.
    + split; [exists f; reflexivity|]. split; [auto|]. split; [intro Y; contradiction|].
      apply K; [rewrite app_length; lia|exists f; reflexivity].
Qed.
Print Assumptions extension.
(** "for every name": one shorter than the extension ends in an exception. *)
Theorem extension_refuted : exists f ext, f <> [] /\ with_ext f ext = None.
Proof. exists (txt "p0033"), copy_ext. split; [discriminate|reflexivity]. Qed.
Print Assumptions extension_refuted.
Example extension_meet : with_ext (txt "bm23.mps.gz") copy_ext = Some (txt "bm23.mps.gz") /\ with_ext (txt "instance") copy_ext = Some (txt "instance.mps.gz") /\
  ~ In (txt "/tmp/a" ++ copy_ext) [txt "bm23.mps"].
Proof. split; [reflexivity|]. split; [reflexivity|]. intros [H|[]]. discriminate. Qed.

(** ** Checking the cuts. *)
(** A cut is warned about exactly when the point is short of its right-hand side by the tolerance or more. *)
Theorem cut_check : forall x vpcs i,
  In i (cplex_check x vpcs) <->
  exists c, nth_error vpcs i = Some c /\ pdot (oc_row c) (fun j => nth j x 0) <= oc_rhs c - EPS7.
Proof.
  intros x vpcs i. unfold cplex_check.
  assert (G : forall l k, In i (warned x k l) <-> exists j c, i = (k + j)%nat /\ nth_error l j = Some c /\ pdot (oc_row c) (fun j => nth j x 0) <= oc_rhs c - EPS7).
  { induction l as [|c l IH]; intro k; cbn [warned].
    - split; [intros []|]. intros (j & c & _ & H & _). destruct j; discriminate.
    - rewrite in_app_iff, in_when, IH. unfold removes. rewrite lessThanVal_iff. cbn [In]. split.
      + intros [[H [<-|[]]]|(j & d & -> & H & K)]; [exists O, c|exists (Datatypes.S j), d]; (split; [lia|split; [assumption||reflexivity|assumption]]).
      + intros ([|j] & d & -> & H & K).
        * left. injection H as ->. split; [exact K|left; lia].
        * right. exists j, d. split; [lia|split; assumption]. }
  rewrite G. split.
  - intros (j & c & -> & H & K). exists c. split; assumption.
  - intros (c & H & K). exists i, c. split; [reflexivity|split; assumption].
Qed.
Print Assumptions cut_check.
(** So a valid cut is never warned about, whatever feasible point is used. *)
Theorem valid_cuts_pass : forall x vpcs, (forall c, In c vpcs -> oc_ub c = None /\ oc_lb c <> None /\ cut_holds c (fun j => nth j x 0)) -> cplex_check x vpcs = [].
Proof.
  intros x vpcs H. destruct (cplex_check x vpcs) as [|i r] eqn:E; [reflexivity|exfalso].
  assert (K : In i (cplex_check x vpcs)) by (rewrite E; left; reflexivity).
  apply cut_check in K as (c & N & K). apply nth_error_In in N. destruct (H c N) as (U & L & [A _]).
  unfold oc_rhs, rowRHS in K. cbn [rlo rup] in K. rewrite U in K. destruct (oc_lb c) as [b|]; [|congruence]. cbn [above] in A.
  unfold EPS7 in K. lra.
Qed.
Print Assumptions valid_cuts_pass.
(** With Gurobi the check is made with the solver's solution when the caller has one already... *)
Theorem gurobi_cut_check : forall a r b s vpcs, gurobi_check (Some (a :: r)) (b :: s) vpcs = Some (cplex_check (b :: s) vpcs).
Proof. reflexivity. Qed.
Print Assumptions gurobi_cut_check.
(** ... but "is computed when the caller has none" fails: the program ends (the test that decides about the run is inverted). *)
Theorem gurobi_cut_check_refuted : forall opt vpcs, gurobi_check None opt vpcs = None /\ gurobi_check (Some []) opt vpcs = None.
Proof. split; reflexivity. Qed.
Print Assumptions gurobi_cut_check_refuted.
Example cut_check_meet :
  let c := {| oc_row := [(0%nat, 1)]; oc_lb := Some 1; oc_ub := None |} in
  cplex_check [0; 1] [c; {| oc_row := [(1%nat, 1)]; oc_lb := Some 1; oc_ub := None |}] = [0%nat] /\ cplex_check [1; 1] [c] = [].
Proof. split; vm_compute; reflexivity. Qed.
