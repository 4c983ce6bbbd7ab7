(** C70: the executable from its start to its end, and its log file over many runs. *)
From Coq Require Import String.
From Verif Require Import Prelude Model.TextUtil Model.Parameters Model.CommandLine Spec.ProgramSpec Proofs.ToleranceP Proofs.ParamP.
From Verif Require Properties.C33_DotProducts Properties.C41_SetByName Properties.C64_LogRow.
#[local] Open Scope Q_scope.
#[local] Open Scope string_scope.
#[local] Open Scope list_scope.

(** ** How a run starts and ends. *)
(** The start is the one the command line describes (C65). *)
Theorem start_agrees : forall E,
  match startUp (me_build E) (me_strtod E) (me_stod E) (me_optlines E) (me_params E) (me_args E) with
  | Done (Stopped s) => begin E = Bstop s
  | Done (Started P dir inst _ v) => begin E = Begun P dir inst (dq v) (negb (text_eqb (gets P LOGFILE) []) && me_can_open E)
  | Undef => begin E = Bundef
  | Exit1 | Terminated => exists l, begin E = Bfail l
  end.
Proof.
  assert (G : forall P p, (exists v, get_string P p = Done v) \/ get_string P p = Undef) by (intros P p; unfold get_string; destruct (lookup _ _ _); eauto).
  intro E. unfold startUp, begin. destruct (processArgs _ _ _ _) as [[P s]| | |]; cbn [bind]; eauto.
  destruct (negb (s =? 0)%Z); [reflexivity|]. destruct (get_string P FILENAME) as [[|c file]| | |]; cbn [bind]; eauto.
  destruct (parseFilename (c :: file)); eauto.
  assert (V : (exists v, get_double P IP_OBJ = Done v) \/ get_double P IP_OBJ = Undef) by (unfold get_double; destruct (lookup _ _ _); eauto).
  destruct V as [[v ->]| ->]; cbn [bind]; [|reflexivity].
  destruct (G P OPTFILE) as [[opt ->]| ->]; cbn [bind]; [|reflexivity].
  assert (S : forall w, (exists P', set_double P IP_OBJ w = Done P' /\ gets P' LOGFILE = gets P LOGFILE) \/ set_double P IP_OBJ w = Undef \/ set_double P IP_OBJ w = Exit1).
  { intro w. unfold set_double. destruct (lookup _ _ _) as [q|]; [|auto]. destruct (d_set q w) as [q'| | |]; auto. left. eexists. split; reflexivity. }
  destruct (_ && _ && _); [|reflexivity].
  destruct (getObjValueFromFile _ _ _ _) as [w| | |]; eauto.
  - destruct (S w) as [(P' & -> & E2)|[-> | ->]]; cbn [bind]; eauto. rewrite E2. reflexivity.
  - destruct (S dbl_lowest) as [(P' & -> & E2)|[-> | ->]]; cbn [bind]; eauto. rewrite E2. reflexivity.
Qed.
Print Assumptions start_agrees.

Lemma body_shape E P dir inst ip logged w ip' L r : main_body E P dir inst ip logged = Row w ip' L r -> w = Wintegral \/ w = Wpreprocessed \/ w = Wcuts.
Proof.
  unfold main_body. destruct (me_first _ _) as [f|]; [|discriminate]. destruct (fractional_indices _ _ _ _).
  - destruct (geti P PREPROCESS =? 0)%Z; [destruct (log_row _); [|discriminate]|]; intro H; injection H as <- _ _ _; auto.
  - destruct (geti P PREPROCESS =? 0)%Z.
    + destruct (parseDisjOptions P _ _) as [[o s]| | |] eqn:ED; try discriminate. rewrite (C41_SetByName.disj_options_status_refuted _ _ _ _ _ ED). cbn [Z.eqb negb].
      destruct (logged && closes_log P o); [discriminate|]. destruct (me_rounds _ _ _ _); [|discriminate]. destruct (log_row _); [|discriminate]. intro H; injection H as <- _ _ _; auto.
    + destruct (performCleaning _ _ _ _ _); [|discriminate]. intro H; injection H as <- _ _ _; auto.
Qed.
(** The exit code is 0 exactly for the runs that did their work; a failing run exits with 1; help stops with its own code. *)
Definition finished (w : what) : Prop := w = Wintegral \/ w = Wpreprocessed \/ w = Wcuts.
Theorem exit_code : forall E existed, let o := program E existed in
  (ou_code o = Some 0%Z <-> finished (ou_what o)) /\
  (ou_what o = Wfailed -> ou_code o = Some 1%Z) /\
  (ou_what o = Wundefined -> ou_code o = None) /\
  (ou_what o = Wstopped -> exists s, s <> 0%Z /\ ou_code o = Some s) /\
  ou_code (program E true) = ou_code (program E false) /\ ou_what (program E true) = ou_what (program E false) /\ ou_ip (program E true) = ou_ip (program E false).
Proof.
  assert (S : forall E s, begin E = Bstop s -> s <> 0%Z).
  { intros E s. unfold begin. destruct (processArgs _ _ _ _) as [[P t]| | |]; try discriminate. destruct (Z.eqb_spec t 0); cbn [negb]; [|intro H; injection H as <-; assumption].
    destruct (get_string P FILENAME) as [[|]| | |]; try discriminate. destruct (parseFilename _); try discriminate.
    destruct (get_double P IP_OBJ); try discriminate. destruct (get_string P OPTFILE); try discriminate. destruct (_ && _ && _); [|discriminate].
    destruct (getObjValueFromFile _ _ _ _); try discriminate; destruct (set_double _ _ _); discriminate. }
  intros E ex o. split; [|split; [|split; [|split]]].
  5: { unfold program. destruct (me_kill E); destruct (begin E); try (split; [|split]; reflexivity).
       all: destruct (main_body _ _ _ _ _ _) as [[]| |]; split; [|split| |split| |split| |split| |split| |split| |split| |split]; reflexivity. }
  all: unfold o, program; clear o; destruct (me_kill E) as [n|];
    [cbn [ou_what ou_code]; try (split; [discriminate|intros [H|[H|H]]; discriminate]); try discriminate; try reflexivity|].
  all: destruct (begin E) as [s|l| |P d i ip l] eqn:EB; cbn [ou_what ou_code].
  all: try discriminate; try reflexivity; try (split; [discriminate|intros [H|[H|H]]; discriminate]).
  - split; [intro H; injection H as ->; destruct (S E 0%Z EB eq_refl)|intros [H|[H|H]]; discriminate].
  - destruct (main_body _ _ _ _ _ _) as [w ip' L r| |] eqn:EM.
    + destruct (body_shape _ _ _ _ _ _ _ _ _ _ EM) as [-> |[-> | ->]]; cbn [ou_what ou_code]; unfold finished; split; auto.
    + cbn [ou_what ou_code]. split; [discriminate|intros [H|[H|H]]; discriminate].
    + cbn [ou_what ou_code]. split; [discriminate|intros [H|[H|H]]; discriminate].
  - destruct (main_body _ _ _ _ _ _) as [w ip' L r| |] eqn:EM; [|reflexivity|discriminate].
    destruct (body_shape _ _ _ _ _ _ _ _ _ _ EM) as [-> |[-> | ->]]; discriminate.
  - destruct (main_body _ _ _ _ _ _) as [w ip' L r| |] eqn:EM; [|discriminate|reflexivity].
    destruct (body_shape _ _ _ _ _ _ _ _ _ _ EM) as [-> |[-> | ->]]; discriminate.
  - intros _. exists s. split; [exact (S E s EB)|reflexivity].
  - destruct (main_body _ _ _ _ _ _) as [w ip' L r| |] eqn:EM; try discriminate.
    destruct (body_shape _ _ _ _ _ _ _ _ _ _ EM) as [-> |[-> | ->]]; discriminate.
Qed.
Print Assumptions exit_code.

(** ** The check of the first solution. *)
Lemma nearest_of x k : Qabs (x - inject_Z k) < 1 # 2 -> nearest x = inject_Z k.
Proof.
  intro H. unfold nearest. f_equal. apply Qabs_Qlt_condition in H. destruct H as [A B].
  pose proof (Qfloor_le (x + (1 # 2))) as F1. pose proof (Qlt_floor (x + (1 # 2))) as F2. set (z := Qfloor _) in *.
  rewrite inject_Z_plus in F2. change (inject_Z 1) with 1 in F2.
  assert (L : (k < z + 1)%Z) by (rewrite Zlt_Qlt, inject_Z_plus; change (inject_Z 1) with 1; lra).
  assert (M : (z < k + 1)%Z) by (rewrite Zlt_Qlt, inject_Z_plus; change (inject_Z 1) with 1; lra). lia.
Qed.
Lemma is_frac_near tol x : tol <= 1 # 2 -> is_frac tol x = false <-> near tol x.
Proof.
  intro T. unfold is_frac, near. rewrite negb_false_iff, orb_true_iff, Qeq_bool_iff. split.
  - intros [H|H]; exists (Qfloor (x + (1 # 2))); [left; unfold nearest in H; lra|right; apply Qltb_lt in H; exact H].
  - intros [k [H|H]].
    + left. rewrite (nearest_of x k); [rewrite H; ring|]. rewrite H. setoid_replace (inject_Z k - inject_Z k) with 0 by ring. reflexivity.
    + right. apply Qltb_lt. rewrite (nearest_of x k); [exact H|]. eapply Qlt_le_trans; [exact H|exact T].
Qed.
Lemma fractional_nil tol ints x n : tol <= 1 # 2 -> fractional_indices tol ints x n = [] <-> forall j, (j < n)%nat -> ints j = true -> near tol (x j).
Proof.
  intro T. unfold fractional_indices. split.
  - intros H j J I. apply is_frac_near; [exact T|]. destruct (is_frac tol (x j)) eqn:F; [|reflexivity].
    assert (K : In j []) by (rewrite <- H; apply filter_In; split; [apply in_seq; lia|rewrite I, F; reflexivity]). destruct K.
  - intro H. destruct (filter _ _) as [|j l] eqn:F; [reflexivity|]. assert (K : In j (j :: l)) by (left; reflexivity). rewrite <- F in K. apply filter_In in K. destruct K as [K1 K2].
    apply in_seq in K1. apply andb_prop in K2. destruct K2 as [I K2]. specialize (H j ltac:(lia) I). apply (is_frac_near _ _ T) in H. rewrite H in K2. discriminate.
Qed.

(** The number of rows times the number of columns fits an int. *)
Definition size_ok (f : first) : Prop := density_field (prob_of (f_inst f) (f_sol f)) <> None.
Lemma early_row E P inst f ip reason : size_ok f -> exists r, log_row (early_log E P inst f ip reason) = Some r.
Proof.
  unfold size_ok, log_row, early_log. cbn [l_orig l_post l_gmics l_cuts l_disj]. unfold orig_fields, post_fields.
  destruct (density_field _) as [d|]; [|congruence]. intros _. destruct (row_stats _) as [[a b] c]. eexists. reflexivity.
Qed.

Lemma body_what E P dir inst ip logged f w ip' L r : me_first E (gets P FILENAME) = Some f -> main_body E P dir inst ip logged = Row w ip' L r ->
  (w = Wintegral <-> fractional_indices (getd P AWAY) (i_int (f_inst f)) (f_sol f) (ncols (i_lp (f_inst f))) = []) /\
  (w <> Wintegral -> ip' = reference E P f ip).
Proof.
  intros F. unfold main_body. rewrite F. destruct (fractional_indices _ _ _ _) as [|j l].
  - destruct (_ =? _)%Z; [destruct (log_row _); [|discriminate]|]; intro H; injection H as <- _ _ _; split; tauto.
  - assert (D : forall w, w <> Wintegral -> (w = Wintegral <-> j :: l = [])) by (intros w0 H; split; [contradiction|discriminate]).
    destruct (_ =? _)%Z.
    + destruct (parseDisjOptions P _ _) as [[o s]| | |]; try discriminate. destruct (negb _).
      * cbv zeta. destruct (log_row _); [|discriminate]. intro H; injection H as <- <- _ _. split; [apply D; discriminate|reflexivity].
      * destruct (_ && _); [discriminate|]. destruct (me_rounds _ _ _ _); [|discriminate]. destruct (log_row _); [|discriminate]. intro H; injection H as <- <- _ _. split; [apply D; discriminate|reflexivity].
    + destruct (performCleaning _ _ _ _ _); [|discriminate]. intro H; injection H as <- <- _ _. split; [apply D; discriminate|reflexivity].
Qed.

Section start.
Context (E : menv) (P : params) (dir inst : text) (ip : Q) (logged : bool) (f : first) (existed : bool).
Hypothesis BEG : begin E = Begun P dir inst ip logged.
Hypothesis FIRST : me_first E (gets P FILENAME) = Some f.
Hypothesis ALIVE : me_kill E = None.
Hypothesis AWAY_SMALL : getd P AWAY <= 1 # 2.

(** The run stops before any cut exactly if every integer column is an integer up to AWAY; then the value of the relaxation is reported as
    the optimal value and nothing was generated or solved. *)
Theorem stops_early : size_ok f -> let o := program E existed in
  (ou_what o = Wintegral <-> forall j, (j < ncols (i_lp (f_inst f)))%nat -> i_int (f_inst f) j = true -> near (getd P AWAY) (f_sol f j)) /\
  (ou_what o = Wintegral -> ou_code o = Some 0%Z /\ ou_ip o = f_value f /\
     (geti P PREPROCESS = 0%Z -> exists L, ou_log o = Some L /\ l_exit L = "OPTIMAL_SOLUTION_FOUND" /\ l_cuts L = Analysis.ci_new /\ l_gmics L = Analysis.ci_new /\
        b_lp (l_bounds L) = f_value f /\ b_ip (l_bounds L) = f_value f /\ l_post L = l_orig L)).
Proof using BEG FIRST ALIVE AWAY_SMALL.
  intros SZ o. unfold o, program. rewrite ALIVE, BEG. clear o.
  pose proof (fractional_nil (getd P AWAY) (i_int (f_inst f)) (f_sol f) (ncols (i_lp (f_inst f))) AWAY_SMALL) as N.
  destruct (fractional_indices (getd P AWAY) (i_int (f_inst f)) (f_sol f) (ncols (i_lp (f_inst f)))) as [|j l] eqn:F.
  - assert (N' := proj1 N eq_refl). destruct (early_row E P inst f (f_value f) "OPTIMAL_SOLUTION_FOUND" SZ) as [r R].
    unfold main_body. rewrite FIRST, F. cbv zeta. destruct (Z.eqb_spec (geti P PREPROCESS) 0) as [M|M].
    + rewrite R. cbn [ou_what ou_code ou_ip ou_log]. split; [tauto|]. intros _. split; [reflexivity|]. split; [reflexivity|]. intros _. eexists. split; [reflexivity|]. repeat split.
    + cbn [ou_what ou_code ou_ip ou_log]. split; [tauto|]. intros _. split; [reflexivity|]. split; [reflexivity|]. intro; contradiction.
  - assert (K : ~ (forall j, (j < ncols (i_lp (f_inst f)))%nat -> i_int (f_inst f) j = true -> near (getd P AWAY) (f_sol f j))) by (intro H; apply N in H; discriminate).
    assert (G : forall o, ou_what o <> Wintegral -> (ou_what o = Wintegral <-> forall j, (j < ncols (i_lp (f_inst f)))%nat -> i_int (f_inst f) j = true -> near (getd P AWAY) (f_sol f j)) /\
      (ou_what o = Wintegral -> ou_code o = Some 0%Z /\ ou_ip o = f_value f /\
       (geti P PREPROCESS = 0%Z -> exists L, ou_log o = Some L /\ l_exit L = "OPTIMAL_SOLUTION_FOUND" /\ l_cuts L = Analysis.ci_new /\ l_gmics L = Analysis.ci_new /\
        b_lp (l_bounds L) = f_value f /\ b_ip (l_bounds L) = f_value f /\ l_post L = l_orig L))) by (intros o H; split; tauto).
    apply G. destruct (main_body E P dir inst ip logged) as [w ip' L r| |] eqn:EM; try discriminate.
    destruct (body_what _ _ _ _ _ _ _ _ _ _ _ FIRST EM) as [W _]. rewrite F in W.
    destruct w; cbn [ou_what]; try discriminate. assert (j :: l = []) by (apply W; reflexivity). discriminate.
Qed.

(** If the integer columns of the solution are exactly integral, the reported value is the optimum of the problem. *)
Theorem integral_start : size_ok f -> relaxation_solved f -> integral (i_int (f_inst f)) (ncols (i_lp (f_inst f))) (f_sol f) ->
  ou_what (program E existed) = Wintegral /\ ou_code (program E existed) = Some 0%Z /\ mip_optimum (f_inst f) (ou_ip (program E existed)).
Proof using BEG FIRST ALIVE AWAY_SMALL.
  intros SZ (R1 & R2 & R3) I. destruct (stops_early SZ) as [A B].
  assert (W : ou_what (program E existed) = Wintegral). { apply A. intros j J K. destruct (I j J K) as [z Z]. exists z. left. exact Z. }
  destruct (B W) as (C & D & _). split; [exact W|]. split; [exact C|]. rewrite D. split.
  - exists (f_sol f). split; [split; assumption|exact R2].
  - intros x [X _]. apply R3, X.
Qed.

(** Otherwise the run goes on; the optimal value it knows is the given one unless a reference solution was asked for. *)
Theorem goes_on : (exists j, (j < ncols (i_lp (f_inst f)))%nat /\ i_int (f_inst f) j = true /\ ~ near (getd P AWAY) (f_sol f j)) ->
  let o := program E existed in ou_what o <> Wintegral /\ (finished (ou_what o) -> ou_ip o = reference E P f ip).
Proof using BEG FIRST ALIVE AWAY_SMALL.
  intros (j & J & I & N) o.
  assert (F : fractional_indices (getd P AWAY) (i_int (f_inst f)) (f_sol f) (ncols (i_lp (f_inst f))) <> []).
  { intro H. apply N. exact (proj1 (fractional_nil _ _ _ _ AWAY_SMALL) H j J I). }
  unfold o, program. rewrite ALIVE, BEG. destruct (main_body E P dir inst ip logged) as [w ip' L r| |] eqn:EM; cbn [ou_what ou_ip].
  - destruct (body_what _ _ _ _ _ _ _ _ _ _ _ FIRST EM) as [W V]. destruct w; cbn [ou_what ou_ip]; (split; [try discriminate; tauto|]); intro; apply V; discriminate || tauto.
  - split; [discriminate|]. intros [H|[H|H]]; discriminate.
  - split; [discriminate|]. intros [H|[H|H]]; discriminate.
Qed.
End start.
Print Assumptions stops_early.
Print Assumptions integral_start.
Print Assumptions goes_on.

(** ** The log file. *)
Lemma split_app a b ls u : split_lines a = (ls, u) ->
  split_lines (a ++ b) = match split_lines b with (l :: ms, v) => (ls ++ (u ++ l) :: ms, v) | ([], v) => (ls, u ++ v) end.
Proof.
  revert ls u. induction a as [|[f|] a IH]; intros ls u H; cbn [app split_lines] in *.
  - injection H as <- <-. cbn [app]. destruct (split_lines b) as [[|l ms] v]; reflexivity.
  - destruct (split_lines a) as [[|m ns] w] eqn:EA.
    + injection H as <- <-. rewrite (IH [] w eq_refl). destruct (split_lines b) as [[|l ms] v]; reflexivity.
    + injection H as <- <-. rewrite (IH (m :: ns) w eq_refl). destruct (split_lines b) as [[|l ms] v]; reflexivity.
  - destruct (split_lines a) as [ms w] eqn:EA. cbn [fst snd] in H. injection H as <- <-. rewrite (IH ms w eq_refl). destruct (split_lines b) as [[|l ns] v]; reflexivity.
Qed.
Lemma split_cells l : split_lines (cells l) = ([], l).
Proof. unfold cells. induction l as [|f l IH]; [reflexivity|]. cbn [map split_lines]. rewrite IH. reflexivity. Qed.
Lemma split_line l : split_lines (cells l ++ [Newline]) = ([l], []).
Proof. rewrite (split_app _ _ [] l (split_cells l)). cbn [split_lines fst snd app]. rewrite app_nil_r. reflexivity. Qed.
Lemma split_more a b ls ms : split_lines a = (ls, []) -> split_lines b = (ms, []) -> split_lines (a ++ b) = (ls ++ ms, []).
Proof. intros A B. rewrite (split_app _ _ _ _ A), B. destruct ms; cbn [app]; rewrite ?app_nil_r; reflexivity. Qed.

(** Nothing is ever removed from the file: lines once complete stay as they are, whatever runs follow, however they end. *)
Theorem only_grows : forall h F t, F = Some t -> exists t', after_runs F h = Some (t ++ t') /\
  forall ls u, split_lines t = (ls, u) -> exists ms, fst (split_lines (t ++ t')) = ls ++ ms.
Proof.
  intros h F t FE. assert (G : exists t', after_runs F h = Some (t ++ t')).
  { revert F t FE. induction h as [|E h IH]; intros F t ->; cbn [after_runs fold_left].
    - exists []. rewrite app_nil_r. reflexivity.
    - unfold after_run at 2. destruct (opens E).
      + destruct (IH (Some (t ++ ou_toks (program E true))) _ eq_refl) as [t' H]. exists (ou_toks (program E true) ++ t'). rewrite app_assoc. exact H.
      + exact (IH (Some t) t eq_refl). }
  destruct G as [t' G]. exists t'. split; [exact G|]. intros ls u S. rewrite (split_app _ _ _ _ S). destruct (split_lines t') as [[|l ms] v]; cbn [fst]; eauto.
  exists []. rewrite app_nil_r. reflexivity.
Qed.
Print Assumptions only_grows.

(** The names of the parameters do not depend on the command line. *)
Lemma map_update {K V W} (eqb : K -> K -> bool) (g : K * V -> W) (k : K) (p q : V) : (forall k', g (k', p) = g (k', q)) ->
  forall m, lookup eqb m k = Some p -> map g (update eqb m k q) = map g m.
Proof.
  intros H m. induction m as [|[k' v] m IH]; [discriminate|]. cbn [lookup update]. destruct (eqb k k').
  - intro L. injection L as ->. cbn [map]. rewrite H. reflexivity.
  - intro L. cbn [map]. rewrite (IH L). reflexivity.
Qed.
Definition names (P : params) : list string := map fst (param_list P).
Lemma names_is P : names P = map (fun '(_, p) => str (ip_name p)) (ints P) ++ map (fun '(_, p) => str (dp_name p)) (doubles P) ++ map (fun '(_, p) => str (sp_name p)) (strings P).
Proof.
  unfold names, param_list. rewrite !map_app, !map_map. f_equal; [|f_equal]; apply map_ext; intros [? ?]; reflexivity.
Qed.
Lemma names_int P k v P' : set_int P k v = Done P' -> names P' = names P.
Proof.
  intro H. destruct (set_int_done _ _ _ _ H) as (p & p' & L & S & ->). rewrite !names_is. cbn [ints doubles strings]. f_equal.
  apply (map_update int_eqb _ k p p'); [|exact L]. intros _. destruct (i_set_done _ _ _ S) as (_ & N & _). unfold ish in N. injection N as -> _ _ _. reflexivity.
Qed.
Lemma names_double P k v P' : set_double P k v = Done P' -> names P' = names P.
Proof.
  intro H. destruct (set_double_done _ _ _ _ H) as (p & p' & L & S & ->). rewrite !names_is. cbn [ints doubles strings]. do 2 f_equal.
  apply (map_update double_eqb _ k p p'); [|exact L]. intros _. destruct (d_set_done _ _ _ S) as (_ & N & _). unfold dsh in N. injection N as -> _ _. reflexivity.
Qed.
Lemma names_string P k v P' : set_string P k v = Done P' -> names P' = names P.
Proof.
  unfold set_string. destruct (lookup string_eqb (strings P) k) as [p|] eqn:L; [|discriminate]. intro H. injection H as <-. rewrite !names_is. cbn [ints doubles strings]. do 2 f_equal.
  apply (map_update string_eqb _ k p); [|exact L]. reflexivity.
Qed.
Lemma names_process b st P s e P' s' : process b st P s e = Done (P', s') -> names P' = names P.
Proof.
  assert (K : forall (r : res params) (s : Z), (forall Q, r = Done Q -> names Q = names P) -> bind r (fun P' => Done (P', s)) = Done (P', s') -> names P' = names P).
  { intros [Q| | |] t H G; try discriminate. cbn [bind] in G. injection G as <- _. apply H. reflexivity. }
  destruct e as [c arg]. unfold process. destruct (action_of c).
  - destruct (parseInt arg) as [[] v]; [|discriminate]. apply K. intros Q. apply names_int.
  - destruct (parseDouble (st arg)) as [[] v]; [|discriminate]. apply K. intros Q. apply names_double.
  - apply K. intros Q. apply names_string.
  - destruct (parseInt arg) as [[] v]; [|discriminate]. destruct (set_int P BB_STRATEGY v) as [Q| | |] eqn:S; try discriminate. cbn [bind].
    destruct (_ && _); [discriminate|]. destruct (_ && _); [discriminate|]. intro H. injection H as <- _. exact (names_int _ _ _ _ S).
  - destruct (parseInt arg) as [rc v]. destruct (_ || _); [discriminate|]. destruct (get_int P BB_STRATEGY) as [z| | |]; try discriminate. cbn [bind]. apply K. intros Q. apply names_int.
  - destruct (parseInt arg) as [[] v]; [|discriminate].
    destruct (set_int P PREPROCESS v) as [P1| | |] eqn:S1; try discriminate. cbn [bind]. destruct (set_int P1 BB_RUNS 1) as [P2| | |] eqn:S2; try discriminate. cbn [bind].
    destruct (set_int P2 BB_MODE 1) as [P3| | |] eqn:S3; try discriminate. cbn [bind]. destruct (set_int P3 BB_STRATEGY _) as [P4| | |] eqn:S4; try discriminate. cbn [bind].
    apply K. intros Q H. rewrite (names_double _ _ _ _ H), (names_int _ _ _ _ S4), (names_int _ _ _ _ S3), (names_int _ _ _ _ S2). exact (names_int _ _ _ _ S1).
  - destruct (parseInt arg) as [[] v]; [|discriminate]. destruct (_ =? _)%Z; [discriminate|]. apply K. intros Q. apply names_int.
  - destruct (get_int P TEMP) as [z| | |]; try discriminate. cbn [bind]. destruct (find _ _) as [[? ?]|]; [|discriminate]. apply K. intros Q. apply names_int.
  - intro H. injection H as <- _. reflexivity.
Qed.
Lemma names_args b st P args P' s : processArgs b st P args = Done (P', s) -> names P' = names P.
Proof.
  unfold processArgs. generalize 0%Z as t. generalize (getopt_long args) as es. intros es. revert P. induction es as [|e es IH]; intros P t; cbn [process_all].
  - intro H. injection H as <- _. reflexivity.
  - destruct (process b st P t e) as [[Q u]| | |] eqn:S; try discriminate. cbn [bind]. intro H. rewrite (IH _ _ H). exact (names_process _ _ _ _ _ _ _ S).
Qed.
Lemma names_begin E P dir inst ip logged : begin E = Begun P dir inst ip logged -> names P = names (me_params E).
Proof.
  unfold begin. destruct (processArgs _ _ _ _) as [[Q s]| | |] eqn:A; try discriminate. apply names_args in A.
  destruct (negb _); [discriminate|]. destruct (get_string Q FILENAME) as [[|]| | |]; try discriminate. destruct (parseFilename _); try discriminate.
  destruct (get_double Q IP_OBJ); try discriminate. destruct (get_string Q OPTFILE); try discriminate. destruct (_ && _ && _).
  - destruct (getObjValueFromFile _ _ _ _); try discriminate;
      (destruct (set_double Q IP_OBJ _) eqn:S; try discriminate; intro H; injection H as <- _ _ _ _; rewrite <- A; exact (names_double _ _ _ _ S)).
  - intro H. injection H as <- _ _ _ _. exact A.
Qed.

(** A run that appends to the log file in the mode that generates cuts, is not killed and stays within defined behaviour. *)
Record logged_run (E : menv) : Prop := {
  lr_params : me_params E = new_params; lr_alive : me_kill E = None; lr_opens : opens E = true; lr_defined : ou_what (program E true) <> Wundefined;
  lr_mode : forall P dir inst ip l, begin E = Begun P dir inst ip l -> geti P PREPROCESS = 0%Z;
  lr_versions : List.length (me_versions E) = 8%nat; lr_times : List.length (me_times E) = List.length overall_times }.
(** What its line says: the row of its own data, or an error message. *)
Definition says (E : menv) (l : list field) : Prop :=
  (ou_code (program E true) = Some 0%Z /\ exists P dir inst ip logged L, begin E = Begun P dir inst ip logged /\ ou_log (program E true) = Some L /\
     l_inst L = str inst /\ l_params L = param_list P /\ row_of (cut_header new_params) L l) \/
  (ou_code (program E true) = Some 1%Z /\ error_line (me_msg E) l).
Lemma times_early E : List.length (early_times E) = List.length overall_times.
Proof. unfold early_times, early_timers. destruct (me_clock E) as [[[a b] c] d]. reflexivity. Qed.
Lemma fst_combine {A B} (l : list A) (m : list B) : List.length l = List.length m -> map fst (combine l m) = l.
Proof. revert m. induction l as [|x l IH]; intros [|y m] H; try discriminate; [reflexivity|]. cbn [combine map fst]. injection H as H. rewrite (IH m H). reflexivity. Qed.
Lemma line_fits E P dir inst ip logged L r : begin E = Begun P dir inst ip logged -> me_params E = new_params -> log_row L = Some r -> l_params L = param_list P ->
  List.length (l_versions L) = 8%nat -> map fst (l_times L) = overall_times -> row_of (cut_header new_params) L r.
Proof.
  intros B M R LP V T. assert (H : cut_header new_params = header (map fst (l_params L)) (map fst (l_times L))).
  { unfold cut_header. f_equal; [|symmetry; exact T]. rewrite LP. symmetry. rewrite <- M. exact (names_begin _ _ _ _ _ _ B). }
  rewrite H. exact (C64_LogRow.columns L r R V).
Qed.
(** The line of a run. *)
Lemma run_line E : logged_run E -> exists l, says E l /\ ou_toks (program E true) = cells l ++ [Newline] /\
  (forall P dir inst ip lg, begin E = Begun P dir inst ip lg -> ou_toks (program E false) = header_toks P ++ cells l ++ [Newline]) /\
  ((forall P dir inst ip lg, begin E <> Begun P dir inst ip lg) -> ou_toks (program E false) = cells l ++ [Newline]).
Proof.
  intros [M A O D MODE V T]. unfold says, program in *. rewrite A in *. unfold opens in O. destruct (begin E) as [s|lg| |P dir inst ip lg] eqn:B; try discriminate O.
  - subst lg. exists [TextF "||"; TextF (me_msg E)]. split; [right; split; [reflexivity|exists []; reflexivity]|]. repeat (split; [reflexivity|]). split; [discriminate|reflexivity].
  - subst lg. specialize (MODE P dir inst ip true eq_refl).
    assert (K : forall Q : Prop, (forall P0 dir0 inst0 ip0 lg, Begun P dir inst ip true <> Begun P0 dir0 inst0 ip0 lg) -> Q) by (intros Q H; destruct (H P dir inst ip true eq_refl)).
    unfold main_body in *. rewrite MODE in *. cbn [Z.eqb] in *.
    destruct (me_first E _) as [f|].
    2: { exists (head_cells P inst ++ [TextF "||"; TextF (me_msg E)]). cbn [ou_code ou_toks app]. split; [right; split; [reflexivity|eexists; reflexivity]|].
         unfold cells. rewrite map_app. cbn [map]. rewrite <- app_assoc. cbn [app]. split; [reflexivity|]. split; [|intro H; exact (K _ H)]. intros ? ? ? ? ? H. injection H as <- _ _ _ _. rewrite <- ?app_assoc. reflexivity. }
    destruct (fractional_indices _ _ _ _).
    + cbv zeta in *. destruct (log_row _) as [r|] eqn:R; [|cbn [ou_what] in D; congruence]. cbn [ou_code ou_log ou_toks app]. exists r. split.
      * left. split; [reflexivity|]. do 6 eexists. split; [reflexivity|]. split; [reflexivity|]. split; [reflexivity|]. split; [reflexivity|].
        eapply line_fits; [exact B|exact M|exact R|reflexivity|exact V|]. cbn [l_times early_log]. apply fst_combine. rewrite map_length. symmetry. apply times_early.
      * split; [reflexivity|]. split; [|intro H; exact (K _ H)]. intros ? ? ? ? ? H. injection H as <- _ _ _ _. reflexivity.
    + destruct (parseDisjOptions P ":" []) as [[os st]| | |] eqn:ED.
      * rewrite (C41_SetByName.disj_options_status_refuted _ _ _ _ _ ED) in *. cbn [Z.eqb negb] in *.
        destruct (true && closes_log P os); [cbn [ou_what] in D; congruence|]. destruct (me_rounds _ _ _ _) as [L|].
        -- destruct (log_row _) as [r|] eqn:R; [|cbn [ou_what] in D; congruence]. cbn [ou_code ou_log ou_toks app]. exists r. split.
           ++ left. split; [reflexivity|]. do 6 eexists. split; [reflexivity|]. split; [reflexivity|]. split; [reflexivity|]. split; [reflexivity|].
              eapply line_fits; [exact B|exact M|exact R|reflexivity|exact V|]. cbn [l_times own_log]. apply fst_combine. rewrite map_length. symmetry. exact T.
           ++ split; [reflexivity|]. split; [|intro H; exact (K _ H)]. intros ? ? ? ? ? H. injection H as <- _ _ _ _. reflexivity.
        -- exists (head_cells P inst ++ [TextF "||"; TextF (me_msg E)]). cbn [ou_code ou_toks app]. split; [right; split; [reflexivity|eexists; reflexivity]|].
           unfold cells. rewrite map_app. cbn [map]. rewrite <- app_assoc. cbn [app]. split; [reflexivity|]. split; [|intro H; exact (K _ H)]. intros ? ? ? ? ? H. injection H as <- _ _ _ _. rewrite <- ?app_assoc. reflexivity.
      * exists (head_cells P inst ++ [TextF "||"; TextF (me_msg E)]). cbn [ou_code ou_toks app]. split; [right; split; [reflexivity|eexists; reflexivity]|].
        unfold cells. rewrite map_app. cbn [map]. rewrite <- app_assoc. cbn [app]. split; [reflexivity|]. split; [|intro H; exact (K _ H)]. intros ? ? ? ? ? H. injection H as <- _ _ _ _. rewrite <- ?app_assoc. reflexivity.
      * exists (head_cells P inst ++ [TextF "||"; TextF (me_msg E)]). cbn [ou_code ou_toks app]. split; [right; split; [reflexivity|eexists; reflexivity]|].
        unfold cells. rewrite map_app. cbn [map]. rewrite <- app_assoc. cbn [app]. split; [reflexivity|]. split; [|intro H; exact (K _ H)]. intros ? ? ? ? ? H. injection H as <- _ _ _ _. rewrite <- ?app_assoc. reflexivity.
      * cbn [ou_what] in D. congruence.
Qed.
(** The row of a finished run begins with what startUp wrote. *)
Lemma row_head L r : log_row L = Some r -> exists x, r = TextF (l_inst L) :: map snd (l_params L) ++ x.
Proof.
  unfold log_row. destruct (orig_fields _); [|discriminate]. destruct (post_fields _ _ _); [|discriminate]. destruct (cut_fields _ _); [|discriminate]. destruct (obj_fields _); [|discriminate].
  destruct (fail_fields _); [|discriminate]. intro H. apply C64_LogRow.some_inj in H. subst r. eexists. reflexivity.
Qed.
Lemma cells_inj a b : cells a ++ [Newline] = cells b ++ [Newline] -> a = b.
Proof. intro H. apply (f_equal split_lines) in H. rewrite !split_line in H. injection H as H. exact H. Qed.
Lemma run_head E P dir inst ip l : me_kill E = None -> begin E = Begun P dir inst ip true -> geti P PREPROCESS = 0%Z -> ou_code (program E true) = Some 0%Z ->
  ou_toks (program E true) = cells l ++ [Newline] -> exists x, l = head_cells P inst ++ x.
Proof.
  intros A B M. unfold program. rewrite A, B. destruct (main_body E P dir inst ip true) as [w ip' L r| |] eqn:EM; [|discriminate|discriminate].
  intros _ T. assert (T' : cells r ++ [Newline] = cells l ++ [Newline]) by (destruct w; exact T). apply cells_inj in T'. subst l. clear T.
  unfold head_cells. rewrite M. cbn [Z.eqb app]. unfold main_body in EM. rewrite M in EM. cbn [Z.eqb] in EM. destruct (me_first E _) as [f|]; [|discriminate]. destruct (fractional_indices _ _ _ _).
  - cbv zeta in EM. destruct (log_row _) as [r'|] eqn:R; [|discriminate]. injection EM as _ _ _ <-. destruct (row_head _ _ R) as [x ->]. exists x. reflexivity.
  - destruct (parseDisjOptions _ _ _) as [[o s]| | |]; try discriminate. destruct (negb _).
    + cbv zeta in EM. destruct (log_row _) as [r'|] eqn:R; [|discriminate]. injection EM as _ _ _ <-. destruct (row_head _ _ R) as [x ->]. exists x. reflexivity.
    + destruct (_ && _); [discriminate|]. destruct (me_rounds _ _ _ _); [|discriminate]. destruct (log_row _) as [r'|] eqn:R; [|discriminate]. injection EM as _ _ _ <-. destruct (row_head _ _ R) as [x ->]. exists x. reflexivity.
Qed.
Lemma runs_lines : forall h t ls, Forall logged_run h -> split_lines t = (ls, []) -> exists t' ms, after_runs (Some t) h = Some t' /\ split_lines t' = (ls ++ ms, []) /\ Forall2 says h ms.
Proof.
  induction h as [|E h IH]; intros t ls H S.
  - exists t, []. rewrite app_nil_r. repeat split; [exact S|constructor].
  - inversion H as [|? ? R H' K1]. subst. destruct (run_line E R) as (l & SL & T & _).
    assert (S' : split_lines (t ++ ou_toks (program E true)) = (ls ++ [l], [])) by (rewrite T; apply split_more; [exact S|apply split_line]).
    destruct (IH _ _ H' S') as (t' & ms & A & B & C). exists t', (l :: ms). split; [|split].
    + cbn [after_runs fold_left]. unfold after_run at 2. rewrite (lr_opens E R). exact A.
    + rewrite B, <- app_assoc. reflexivity.
    + constructor; assumption.
Qed.
(** A log file written by such runs, the first of which got past the reading of its arguments: two lines of names, then one line per run, in
    order; the line of a run that did its work is the row of its data under those names, that of a failing run ends with its message. *)
Theorem log_of_runs : forall E h, Forall logged_run (E :: h) -> (exists P dir inst ip, begin E = Begun P dir inst ip true) ->
  exists t labels lines, after_runs None (E :: h) = Some t /\
    split_lines t = (map TextF labels :: map TextF (cut_header new_params) :: lines, []) /\
    List.length labels = List.length (cut_header new_params) /\ Forall2 says (E :: h) lines.
Proof.
  intros E h H (P & dir & inst & ip & B). inversion H as [|? ? R H' K1]. subst. destruct (run_line E R) as (l & SL & T & TF & _). specialize (TF _ _ _ _ _ B).
  set (labels := category_line (List.length (param_list P)) (List.length overall_times)).
  assert (NP : names P = names new_params) by (rewrite (names_begin _ _ _ _ _ _ B), (lr_params E R); reflexivity).
  assert (S : split_lines (ou_toks (program E false)) = ([map TextF labels; map TextF (cut_header new_params)] ++ [l], [])).
  { rewrite TF. apply split_more; [|apply split_line]. unfold header_toks. rewrite (lr_mode E R _ _ _ _ _ B). cbn [Z.eqb].
    fold labels. unfold cut_header. fold (names new_params). rewrite <- NP. fold (names P).
    change (map TextF labels :: [map TextF (header (names P) overall_times)])%list with ([map TextF labels] ++ [map TextF (header (names P) overall_times)]).
    rewrite app_assoc. replace (map (fun n => Cell (TextF n)) labels) with (cells (map TextF labels)) by (unfold cells; apply map_map).
    replace (map (fun n => Cell (TextF n)) (header (names P) overall_times)) with (cells (map TextF (header (names P) overall_times))) by (unfold cells; apply map_map).
    apply split_more; apply split_line. }
  destruct (runs_lines h _ _ H' S) as (t' & ms & A & C & D). exists t', labels, (l :: ms). split; [|split; [|split]].
  - cbn [after_runs fold_left]. unfold after_run at 2. rewrite (lr_opens E R). exact A.
  - rewrite C, <- app_assoc. reflexivity.
  - unfold labels, cut_header. assert (PL : List.length (param_list P) = List.length (map fst (param_list new_params))) by (fold (names new_params); rewrite <- NP; unfold names; rewrite map_length; reflexivity).
    rewrite PL. vm_compute. reflexivity.
  - constructor; assumption.
Qed.
Print Assumptions log_of_runs.

(** ** Concrete runs: minimise x - y with x integer, 0 <= x, y <= 1, y <= M x. *)
Definition xlp (M : Q) : lp :=
  {| ncols := 2; nrows := 1; clo := fun _ => Some 0; cup := fun _ => Some 1; rows := fun _ => {| rcoef := [(0%nat, - M); (1%nat, 1)]; rlo := None; rup := Some 0 |};
     obj := fun j => if Nat.eqb j 0 then 1 else - (1) |}.
Definition xinst (M off : Q) : inst := {| i_lp := xlp M; i_int := Nat.eqb 0; i_min := true; i_off := off |}.
Definition xfirst (M off : Q) : first := {| f_inst := xinst M off; f_value := / M - 1 - off; f_sol := fun j => if Nat.eqb j 0 then / M else 1 |}.
Definition xst (t : text) : strtod_result := {| sd_val := TextUtil.DFin 300; sd_rest := Some []; sd_erange := false |}.
Definition xpre : penv := {| pe_gurobi := false; pe_cplex := false; pe_presolve_gurobi := fun _ => None; pe_presolve_cplex := fun _ => None; pe_tmp := fun _ => txt "t"; pe_opt := fun _ => None;
  pe_sol := fun _ _ => 0; pe_clean := {| ka_sol := fun _ _ => 0; ka_down := fun _ _ => false; ka_up := fun _ _ => false; ka_lp := fun _ _ _ => None |}; pe_bb := fun _ => [] |}.
(** [rounds]: the rounds succeed; [lines]: of the file of optimal values. *)
Definition xE (args : list text) (f : option first) (rounds : bool) (lines : option (list text)) (kill : option nat) : menv :=
  {| me_build := {| b_gurobi := true; b_cplex := false; b_cbc := true |}; me_strtod := xst; me_stod := fun _ => Some (TextUtil.DFin 7); me_params := new_params; me_args := args; me_optlines := lines; me_can_open := true;
     me_first := fun _ => f; me_gurobi := fun _ => Some (fun _ => 0); me_pre := xpre; me_files := [];
     me_rounds := fun P opts ip => if rounds then match f with Some g => Some (early_log {| me_build := {| b_gurobi := true; b_cplex := false; b_cbc := true |}; me_strtod := xst; me_stod := fun _ => Some (TextUtil.DFin 7);
       me_params := new_params; me_args := args; me_optlines := lines; me_can_open := true; me_first := fun _ => f; me_gurobi := fun _ => None; me_pre := xpre; me_files := []; me_rounds := fun _ _ _ => None; me_times := []; me_clock := (0, 0, 0, 0)%nat;
       me_versions := []; me_end := ""; me_elapsed := 0; me_msg := ""; me_kill := None |} P [] g ip "SUCCESS") | None => None end else None;
     me_times := map inject_Z [1; 2; 3; 4; 5; 6; 7; 8; 9; 10; 11; 12; 13; 14; 15]%Z; me_clock := (0, 10, 20, 30)%nat; me_versions := ["1"; "2"; "3"; "4"; "5"; "host"; "cpu"; "7"]; me_end := "now"; me_elapsed := 5; me_msg := "*** ERROR"; me_kill := kill |}.
Definition xargs : list text := [txt "-f"; txt "dir/bm23.mps"; txt "-l"; txt "log.csv"; txt "-d"; txt "4"].

Lemma x_solved M off : 1 < M -> relaxation_solved (xfirst M off).
Proof.
  intro H. assert (I : / M * M == 1) by (field; lra). assert (J : 0 < / M) by (apply Qinv_lt_0_compat; lra).
  assert (K : / M < 1) by (apply Qnot_le_lt; intro L; assert (1 * M <= / M * M) by (apply Qmult_le_compat_r; lra); lra).
  split; [|split].
  - split.
    + intros j J1. cbn in J1. destruct j as [|[|j]]; [| |lia]; cbn; lra.
    + intros i _. cbn [xfirst xinst i_lp f_inst f_sol xlp rows rcoef rlo rup above below]. split; [exact Logic.I|]. rewrite !pdot_cons, pdot_nil. cbn. rewrite Qmult_comm in I. lra.
  - unfold value. cbn. field. lra.
  - intros x [BX RX]. unfold value. cbn [xfirst xinst i_lp f_inst f_value i_off xlp ncols obj seq].
    destruct (BX 0%nat ltac:(cbn; lia)) as [X0 _]. destruct (BX 1%nat ltac:(cbn; lia)) as [_ X1]. destruct (RX 0%nat ltac:(cbn; lia)) as [_ R]. cbn [xfirst xinst i_lp f_inst xlp rows rcoef rup clo cup above below] in *.
    rewrite !pdot_cons, pdot_nil in R. cbn [fst snd] in R. rewrite !Qsumf_cons, Qsumf_nil. cbn [Nat.eqb].
    assert (Y : x 1%nat <= M * x 0%nat) by lra.
    assert (Z : / M * x 1%nat <= x 0%nat). { assert (/ M * x 1%nat <= / M * (M * x 0%nat)) as T by (apply Qmult_le_l; lra). rewrite Qmult_assoc, I in T. lra. }
    assert (W : (1 - / M) * x 1%nat <= (1 - / M) * 1) by (apply Qmult_le_l; lra). lra.
Qed.
(** Refuted: the reported optimal value is not the optimum when the solution is integral only up to AWAY (here the default 0.001). *)
Theorem tolerance_refuted : exists E f, me_kill E = None /\ me_params E = new_params /\ (forall t, me_first E t = Some f) /\ relaxation_solved f /\
  ou_what (program E true) = Wintegral /\ ou_code (program E true) = Some 0%Z /\ ou_ip (program E true) == - (1999 # 2000) /\ mip_optimum (f_inst f) 0.
Proof.
  exists (xE xargs (Some (xfirst 2000 0)) true None None), (xfirst 2000 0). split; [reflexivity|]. split; [reflexivity|]. split; [reflexivity|]. split; [apply x_solved; reflexivity|].
  split; [vm_compute; reflexivity|]. split; [vm_compute; reflexivity|]. split; [vm_compute; reflexivity|]. split.
  - exists (fun _ => 0). split; [|vm_compute; reflexivity]. split; [split|].
    + intros j _. cbn. lra.
    + intros i _. cbn [xfirst xinst i_lp f_inst xlp rows rcoef rlo rup above below]. split; [exact Logic.I|]. rewrite !pdot_cons, pdot_nil. cbn. lra.
    + intros j _ _. exists 0%Z. reflexivity.
  - intros x [[BX RX] I]. unfold value. cbn [xfirst xinst i_lp f_inst f_value i_off xlp ncols obj seq].
    destruct (BX 0%nat ltac:(cbn; lia)) as [X0 _]. destruct (BX 1%nat ltac:(cbn; lia)) as [_ X1]. destruct (RX 0%nat ltac:(cbn; lia)) as [_ R]. cbn [xfirst xinst i_lp f_inst xlp rows rcoef rup clo cup above below] in *.
    rewrite !pdot_cons, pdot_nil in R. cbn [fst snd] in R. rewrite !Qsumf_cons, Qsumf_nil. cbn [Nat.eqb].
    destruct (I 0%nat ltac:(cbn; lia) eq_refl) as [z Z]. rewrite Z in *. destruct (Z_lt_le_dec z 1) as [L|L].
    + assert (A : inject_Z z <= 0) by (change 0 with (inject_Z 0); rewrite <- Zle_Qle; lia). lra.
    + assert (A : 1 <= inject_Z z) by (change 1 with (inject_Z 1); rewrite <- Zle_Qle; lia). lra.
Qed.
Print Assumptions tolerance_refuted.

(** ** The reference solution. *)
Section reference_run.
Context (E : menv) (P : params) (dir inst : text) (ip : Q) (logged : bool) (f : first) (existed : bool) (y : nat -> Q).
Hypothesis BEG : begin E = Begun P dir inst ip logged.
Hypothesis FIRST : me_first E (gets P FILENAME) = Some f.
Hypothesis ALIVE : me_kill E = None.
Hypothesis AWAY_SMALL : getd P AWAY <= 1 # 2.
Hypothesis GOES_ON : exists j, (j < ncols (i_lp (f_inst f)))%nat /\ i_int (f_inst f) j = true /\ ~ near (getd P AWAY) (f_sol f j).
Hypothesis FINISHED : finished (ou_what (program E existed)).
Hypothesis FOUND : b_gurobi (me_build E) = true /\ me_gurobi E P = Some y.

(** A known optimal value is kept.  An unknown one becomes the value of the solution found - without the constant of the objective. *)
Theorem reference_value :
  (finite ip = true -> ou_ip (program E existed) = ip) /\
  (geti P TEMP = temp_value CHECK_CUTS_AGAINST_BB_OPT -> finite ip = false -> ou_ip (program E existed) == value (f_inst f) y + i_off (f_inst f)).
Proof using BEG FIRST ALIVE AWAY_SMALL GOES_ON FINISHED FOUND.
  destruct (goes_on _ _ _ _ _ _ _ existed BEG FIRST ALIVE AWAY_SMALL GOES_ON) as [_ R]. rewrite (R FINISHED). unfold reference. destruct FOUND as [-> ->]. split.
  - intros ->. destruct (_ && true); reflexivity.
  - intros -> ->. cbn [Z.eqb temp_value Pos.eqb andb]. rewrite C33_DotProducts.dotProduct_dense_is_sum. unfold value.
    assert (S : Qsumf (fun i => y i * obj (i_lp (f_inst f)) i) (seq 0 (ncols (i_lp (f_inst f)))) == Qsumf (fun j => obj (i_lp (f_inst f)) j * y j) (seq 0 (ncols (i_lp (f_inst f))))).
    { apply Qsumf_ext. intros i _. ring. }
    rewrite S. ring.
Qed.
(** So with no constant in the objective and an optimal solution found, the value is the optimum of the problem. *)
Theorem reference_optimal : geti P TEMP = temp_value CHECK_CUTS_AGAINST_BB_OPT -> finite ip = false -> i_off (f_inst f) == 0 -> mip_optimum (f_inst f) (value (f_inst f) y) ->
  mip_optimum (f_inst f) (ou_ip (program E existed)).
Proof using BEG FIRST ALIVE AWAY_SMALL GOES_ON FINISHED FOUND.
  intros T I Z [(x & O & V) M]. pose proof (proj2 reference_value T I) as R. rewrite Z, Qplus_0_r in R. split.
  - exists x. split; [exact O|]. rewrite R. exact V.
  - intros z Oz. rewrite R. apply M, Oz.
Qed.
(** Refuted: CHECK_CUTS_AGAINST_BB_OPT together with any other option of TEMP has no effect. *)
Theorem reference_options_refuted : geti P TEMP <> temp_value CHECK_CUTS_AGAINST_BB_OPT -> ou_ip (program E existed) = ip.
Proof using BEG FIRST ALIVE AWAY_SMALL GOES_ON FINISHED FOUND.
  intro T. destruct (goes_on _ _ _ _ _ _ _ existed BEG FIRST ALIVE AWAY_SMALL GOES_ON) as [_ R]. rewrite (R FINISHED). unfold reference.
  apply Z.eqb_neq in T. rewrite T. reflexivity.
Qed.
End reference_run.
Print Assumptions reference_value.
Print Assumptions reference_optimal.
Print Assumptions reference_options_refuted.
Lemma half_not_near : ~ near (1 # 1000) (/ 2).
Proof.
  intros [k [H|H]].
  - unfold Qeq in H. cbn in H. lia.
  - apply Qabs_Qlt_condition in H. destruct H as [A B]. change (/ 2) with (1 # 2) in *. destruct (Z_lt_le_dec k 1) as [L|L].
    + assert (inject_Z k <= 0) by (change 0 with (inject_Z 0); rewrite <- Zle_Qle; lia). lra.
    + assert (1 <= inject_Z k) by (change 1 with (inject_Z 1); rewrite <- Zle_Qle; lia). lra.
Qed.
Lemma x_optimum off : mip_optimum (xinst 2 off) (- off).
Proof.
  split.
  - exists (fun _ => 0). split; [|unfold value; cbn; ring]. split; [split|].
    + intros j _. cbn. lra.
    + intros i _. cbn [xinst i_lp xlp rows rcoef rlo rup above below]. split; [exact Logic.I|]. rewrite !pdot_cons, pdot_nil. cbn. lra.
    + intros j _ _. exists 0%Z. reflexivity.
  - intros x [[BX RX] I]. unfold value. cbn [xinst i_lp i_off xlp ncols obj seq].
    destruct (BX 0%nat ltac:(cbn; lia)) as [X0 _]. destruct (BX 1%nat ltac:(cbn; lia)) as [_ X1]. destruct (RX 0%nat ltac:(cbn; lia)) as [_ R]. cbn [xinst i_lp xlp rows rcoef rup clo cup above below] in *.
    rewrite !pdot_cons, pdot_nil in R. cbn [fst snd] in R. rewrite !Qsumf_cons, Qsumf_nil. cbn [Nat.eqb].
    destruct (I 0%nat ltac:(cbn; lia) eq_refl) as [z Z]. rewrite Z in *. destruct (Z_lt_le_dec z 1) as [L|L].
    + assert (A : inject_Z z <= 0) by (change 0 with (inject_Z 0); rewrite <- Zle_Qle; lia). lra.
    + assert (A : 1 <= inject_Z z) by (change 1 with (inject_Z 1); rewrite <- Zle_Qle; lia). lra.
Qed.
(** Refuted: with a constant in the objective the value is wrong (0 instead of -5); with PRINT_BOUND_BY_ROUND asked for as well nothing is known. *)
Theorem reference_constant_refuted :
  let E := xE (xargs ++ [txt "--temp=8"]) (Some (xfirst 2 5)) true None None in
  (exists y, me_gurobi E new_params = Some y /\ value (xinst 2 5) y == - (5) /\ feasible (xlp 2) y /\ integral (i_int (xinst 2 5)) 2 y) /\ mip_optimum (xinst 2 5) (- (5)) /\
  ou_code (program E true) = Some 0%Z /\ ou_ip (program E true) == 0 /\
  let E' := xE (xargs ++ [txt "--temp=24"]) (Some (xfirst 2 0)) true None None in
  use_temp_option 24 CHECK_CUTS_AGAINST_BB_OPT = true /\ ou_code (program E' true) = Some 0%Z /\ finite (ou_ip (program E' true)) = false.
Proof.
  cbv zeta. split; [|split; [exact (x_optimum 5)|]].
  - exists (fun _ => 0). split; [reflexivity|]. split; [vm_compute; reflexivity|]. split; [split|].
    + intros j _. cbn. lra.
    + intros i _. cbn [xlp rows rcoef rlo rup above below]. split; [exact Logic.I|]. rewrite !pdot_cons, pdot_nil. cbn. lra.
    + intros j _ _. exists 0%Z. reflexivity.
  - repeat (split; [vm_compute; reflexivity|]). vm_compute. reflexivity.
Qed.
Print Assumptions reference_constant_refuted.
Example reference_ex : let E := xE (xargs ++ [txt "--temp=8"]) (Some (xfirst 2 0)) true None None in exists P dir inst ip, begin E = Begun P dir inst ip true /\ getd P AWAY <= 1 # 2 /\
  geti P TEMP = temp_value CHECK_CUTS_AGAINST_BB_OPT /\ finite ip = false /\ finished (ou_what (program E true)) /\ b_gurobi (me_build E) = true /\ me_gurobi E P = Some (fun _ => 0) /\
  mip_optimum (xinst 2 0) (value (xinst 2 0) (fun _ => 0)) /\ ~ near (getd P AWAY) (f_sol (xfirst 2 0) 0%nat) /\ ou_ip (program E true) == 0.
Proof.
  cbv zeta. do 4 eexists. split; [vm_compute; reflexivity|]. split; [vm_compute; discriminate|]. repeat (split; [vm_compute; reflexivity|]).
  split; [right; right; vm_compute; reflexivity|]. repeat (split; [reflexivity|]). split; [|split; [exact half_not_near|vm_compute; reflexivity]].
  assert (V : value (xinst 2 0) (fun _ => 0) == - 0) by (vm_compute; reflexivity). destruct (x_optimum 0) as [(x & O & W) M]. split.
  - exists x. split; [exact O|]. rewrite V. exact W.
  - intros z Z. rewrite V. apply M, Z.
Qed.

(** ** The time of the whole run. *)
(** Refuted: in the row of a run that stops early, the time of the whole run is 0: its timer is still running and [print] shows finished intervals only. *)
Theorem early_total_time_refuted : forall E existed L q, ou_what (program E existed) = Wintegral -> ou_log (program E existed) = Some L ->
  In ("TOTAL_TIME", q) (l_times L) -> exists z, q = NumF z /\ z == 0.
Proof.
  intros E ex L q W. unfold program in *. destruct (me_kill E); [discriminate|]. destruct (begin E) as [s|l| |P dir inst ip lg]; try discriminate.
  destruct (main_body E P dir inst ip lg) as [w ip' L' r| |] eqn:EM; try discriminate. assert (WI : w = Wintegral) by (destruct w; cbn [ou_what] in W; congruence). subst w. cbn [ou_log]. intros -> I.
  unfold main_body in EM. destruct (me_first E _) as [f|]; [|discriminate]. destruct (fractional_indices _ _ _ _).
  - destruct (_ =? _)%Z; [|discriminate]. cbv zeta in EM. destruct (log_row _); [|discriminate]. injection EM as _ <- _. cbn [l_times early_log] in I.
    unfold early_times, early_timers in I. destruct (me_clock E) as [[[t0 t1] t2] t3]. vm_compute in I.
    repeat (destruct I as [I|I]; [first [apply (f_equal fst) in I; discriminate I|apply (f_equal snd) in I; cbn [snd] in I; subst q; eexists; split; [reflexivity|vm_compute; reflexivity]]|]). destruct I.
  - exfalso. destruct (_ =? _)%Z.
    + destruct (parseDisjOptions _ _ _) as [[o s]| | |]; try discriminate. destruct (negb _); [cbv zeta in EM; destruct (log_row _); discriminate|].
      destruct (_ && _); [discriminate|]. destruct (me_rounds _ _ _ _); [|discriminate]. destruct (log_row _); discriminate.
    + destruct (performCleaning _ _ _ _ _); discriminate.
Qed.
Print Assumptions early_total_time_refuted.

(** ** Log files the theorem above does not cover. *)
(** Refuted: one line per run, if a run was killed.  Its unfinished line [u] is continued by the next run: that run's row is nowhere in the file, the line
    that holds it is longer than the header. *)
Theorem unfinished_line_refuted : forall t ls u E, split_lines t = (ls, u) -> u <> [] -> logged_run E -> exists t' l, after_run E (Some t) = Some t' /\ says E l /\
  split_lines t' = (ls ++ [u ++ l], []) /\ (ou_code (program E true) = Some 0%Z -> (List.length (u ++ l) > List.length (cut_header new_params))%nat).
Proof.
  intros t ls u E S U R. destruct (run_line E R) as (l & SL & T & _). exists (t ++ ou_toks (program E true)), l. unfold after_run. rewrite (lr_opens E R). split; [reflexivity|]. split; [exact SL|]. split.
  - rewrite T, (split_app _ _ _ _ S), split_line. reflexivity.
  - intro C. destruct SL as [(_ & P & dir & inst & ip & lg & L & _ & _ & _ & _ & RO & _)|[C' _]]; [|congruence]. rewrite app_length, RO. destruct u; [congruence|]. cbn [List.length]. lia.
Qed.
Print Assumptions unfinished_line_refuted.

(** Refuted: the names, if the first run stops while reading the file of optimal values: the log file exists from then on, no later run writes them. *)
Theorem header_missing_refuted : forall E h, begin E = Bfail true -> me_kill E = None ->
  exists t ms, after_runs None (E :: h) = Some t /\ fst (split_lines t) = [TextF "||"; TextF (me_msg E)] :: ms /\
    (Forall logged_run h -> Forall2 says h ms).
Proof.
  intros E h B A. assert (T : ou_toks (program E false) = cells [TextF "||"; TextF (me_msg E)] ++ [Newline]) by (unfold program; rewrite A, B; reflexivity).
  assert (S : split_lines (ou_toks (program E false)) = ([[TextF "||"; TextF (me_msg E)]], [])) by (rewrite T; apply split_line).
  assert (X : after_runs None (E :: h) = after_runs (Some (ou_toks (program E false))) h) by (cbn [after_runs fold_left]; unfold after_run at 2, opens; rewrite B; reflexivity).
  destruct (only_grows h _ _ eq_refl : exists t', after_runs (Some (ou_toks (program E false))) h = _ /\ _) as (t' & G & L). destruct (L _ _ S) as [ms M].
  exists (ou_toks (program E false) ++ t'), ms. rewrite X. split; [exact G|]. split; [exact M|]. intro H. destruct (runs_lines h _ _ H S) as (t2 & ms2 & G2 & S2 & F2).
  rewrite G in G2. injection G2 as <-. rewrite S2 in M. cbn [fst app] in M. injection M as <-. exact F2.
Qed.
Print Assumptions header_missing_refuted.

(** Refuted: names and rows agree, if a preprocessing run began the file: the header has 137 names, the row of a cut run has more. *)
Theorem mixed_modes_refuted : forall E P dir inst ip, begin E = Begun P dir inst ip true -> me_kill E = None -> geti P PREPROCESS <> 0%Z ->
  exists rest, after_runs None [E] = Some (map (fun n => Cell (TextF n)) pre_category_line ++ Newline :: map (fun n => Cell (TextF n)) pre_header ++ Newline :: rest) /\
  forall E2, logged_run E2 -> exists l, says E2 l /\ ou_toks (program E2 true) = cells l ++ [Newline] /\
    (ou_code (program E2 true) = Some 0%Z -> (List.length l > List.length pre_header)%nat).
Proof.
  intros E P dir inst ip B A M. apply Z.eqb_neq in M.
  assert (T : exists rest, ou_toks (program E false) = header_toks P ++ rest).
  { unfold program. rewrite A, B. destruct (main_body _ _ _ _ _ _) as [[]| |]; cbn [ou_toks]; eauto. }
  destruct T as [rest T]. exists rest. split.
  - cbn [after_runs fold_left]. unfold after_run, opens. rewrite B, T. unfold header_toks. rewrite M. rewrite <- !app_assoc. reflexivity.
  - intros E2 R. destruct (run_line E2 R) as (l & SL & T2 & _). exists l. split; [exact SL|]. split; [exact T2|]. intro C.
    destruct SL as [(_ & P' & d' & i' & ip' & lg & L & _ & _ & _ & _ & RO & _)|[C' _]]; [|congruence]. rewrite RO.
    assert (K : (List.length pre_header <? List.length (cut_header new_params))%nat = true) by (vm_compute; reflexivity). apply Nat.ltb_lt in K. exact K.
Qed.
Print Assumptions mixed_modes_refuted.

(** Refuted: the row of a preprocessing run that stops early has the instance name and the 13 fields of the end only. *)
Theorem early_preprocessing_row_refuted : forall E P dir inst ip, begin E = Begun P dir inst ip true -> geti P PREPROCESS <> 0%Z -> List.length (me_versions E) = 8%nat ->
  ou_what (program E true) = Wintegral -> exists l, ou_toks (program E true) = cells l ++ [Newline] /\ List.length l = 14%nat /\ List.length pre_header = 137%nat.
Proof.
  intros E P dir inst ip B M V W. apply Z.eqb_neq in M. unfold program in *. destruct (me_kill E); [discriminate|]. rewrite B in *. cbv zeta in *.
  destruct (main_body E P dir inst ip true) as [w ip' L' r| |] eqn:EM; try discriminate. assert (WI : w = Wintegral) by (destruct w; cbn [ou_what] in W; congruence). subst w. exists r. split; [reflexivity|].
  unfold main_body in EM. destruct (me_first E _) as [f|]; [|discriminate]. rewrite M in EM. destruct (fractional_indices _ _ _ _).
  - injection EM as _ _ <-. split; [|vm_compute; reflexivity]. unfold end_fields. cbn [List.length the_ending en_versions]. rewrite app_length, map_length, V. reflexivity.
  - destruct (performCleaning _ _ _ _ _); discriminate.
Qed.
Print Assumptions early_preprocessing_row_refuted.

(** Refuted: one line per run, if two runs share the file at the same time.  Each writes the instance and its parameters, flushes and
    writes the rest at its end; with both starts before both ends no line is the row of either run: the first is too long, the second too short. *)
Theorem concurrent_runs_refuted : forall E1 E2 t ls, logged_run E1 -> logged_run E2 -> ou_code (program E1 true) = Some 0%Z -> ou_code (program E2 true) = Some 0%Z ->
  split_lines t = (ls, []) -> exists m1 m2, split_lines (at_once E1 E2 t) = (ls ++ [m1; m2], []) /\
    (List.length m1 > List.length (cut_header new_params))%nat /\ (List.length m2 < List.length (cut_header new_params))%nat.
Proof.
  assert (G : forall E, logged_run E -> ou_code (program E true) = Some 0%Z -> exists h r, h <> [] /\ flushed E true = cells h /\ ou_toks (program E true) = cells (h ++ r) ++ [Newline] /\
    List.length (h ++ r) = List.length (cut_header new_params)).
  { intros E R C. destruct (run_line E R) as (l & SL & T & _). destruct SL as [(_ & P & dir & inst & ip & lg & L & B & O & _ & _ & RO & _)|[C' _]]; [|congruence].
    pose proof (lr_opens E R) as OP. unfold opens in OP. rewrite B in OP. subst lg. pose proof (lr_mode E R _ _ _ _ _ B) as M.
    destruct (run_head E P dir inst ip l (lr_alive E R) B M C T) as [x ->]. exists (head_cells P inst), x. split; [discriminate|]. split; [unfold flushed; rewrite B; reflexivity|]. split; [exact T|exact RO]. }
  assert (SK : forall h r, skipn (List.length (cells h)) (cells (h ++ r) ++ [Newline]) = cells r ++ [Newline]).
  { intros h r. unfold cells. rewrite map_app, <- app_assoc, skipn_app, skipn_all, Nat.sub_diag. reflexivity. }
  intros E1 E2 t ls R1 R2 C1 C2 S. destruct (G E1 R1 C1) as (a1 & a2 & A & A1 & A2 & A3). destruct (G E2 R2 C2) as (b1 & b2 & B & B1 & B2 & B3).
  exists (a1 ++ b1 ++ a2), b2. split; [|split].
  - unfold at_once. rewrite A1, B1, A2, B2, !SK. apply split_more; [exact S|].
    replace (cells a1 ++ cells b1 ++ (cells a2 ++ [Newline]) ++ cells b2 ++ [Newline]) with ((cells (a1 ++ b1 ++ a2) ++ [Newline]) ++ cells b2 ++ [Newline]).
    + apply (split_more _ _ [a1 ++ b1 ++ a2] [b2]); apply split_line.
    + unfold cells. rewrite !map_app. repeat rewrite <- app_assoc. reflexivity.
  - rewrite <- A3, !app_length. destruct b1; [congruence|]. cbn [List.length]. lia.
  - rewrite <- B3, !app_length. destruct b1; [congruence|]. cbn [List.length]. lia.
Qed.
Print Assumptions concurrent_runs_refuted.

(** Refuted: a wrong number of disjunction options ends the run with an error.  With a log file the message is written, the file closed and the run goes
    on, to write to the closed file at its end; without one the run ends as if nothing was wrong. *)
Theorem option_count_refuted : forall E P dir inst ip logged f opts existed, begin E = Begun P dir inst ip logged -> me_first E (gets P FILENAME) = Some f -> me_kill E = None ->
  geti P PREPROCESS = 0%Z -> (exists j, (j < ncols (i_lp (f_inst f)))%nat /\ i_int (f_inst f) j = true /\ ~ near (getd P AWAY) (f_sol f j)) -> getd P AWAY <= 1 # 2 ->
  parseDisjOptions P ":"%char [] = Done (opts, 0%Z) -> gets P DISJ_OPTIONS <> [] -> geti P MODE <> 4%Z -> Z.of_nat (List.length opts) <> geti P ROUNDS ->
  (logged = true -> ou_what (program E existed) = Wundefined /\ exists before, ou_toks (program E existed) = before ++ fail_toks E) /\
  (logged = false -> forall L r, me_rounds E P opts (reference E P f ip) = Some L -> log_row (own_log E P inst L) = Some r -> ou_code (program E existed) = Some 0%Z).
Proof.
  intros E P dir inst ip logged f opts ex B F A M G AW D NE MO NR.
  assert (FR : fractional_indices (getd P AWAY) (i_int (f_inst f)) (f_sol f) (ncols (i_lp (f_inst f))) <> []).
  { intro H. destruct G as (j & J & I & N). apply N. exact (proj1 (fractional_nil _ _ _ _ AW) H j J I). }
  assert (C : closes_log P opts = true).
  { unfold closes_log. apply Z.eqb_neq in MO. apply Z.eqb_neq in NR. rewrite MO, NR. destruct (gets P DISJ_OPTIONS); [congruence|reflexivity]. }
  unfold program. rewrite A, B. unfold main_body. rewrite F, M, D, C. destruct (fractional_indices _ _ _ _); [congruence|]. cbn [Z.eqb negb]. split.
  - intros ->. cbn [andb]. split; [reflexivity|]. cbn [ou_toks]. rewrite app_assoc. eexists. reflexivity.
  - intros -> L r R1 R2. cbn [andb]. rewrite R1, R2. reflexivity.
Qed.
Print Assumptions option_count_refuted.

(** ** Cases that meet the hypotheses. *)
Lemma mode_of E : match begin E with Begun P _ _ _ _ => (geti P PREPROCESS =? 0)%Z | _ => true end = true -> forall P dir inst ip l, begin E = Begun P dir inst ip l -> geti P PREPROCESS = 0%Z.
Proof. intros H P dir inst ip l B. rewrite B in H. apply Z.eqb_eq, H. Qed.
Ltac logged := constructor; [reflexivity|reflexivity|vm_compute; reflexivity|vm_compute; discriminate|apply mode_of; vm_compute; reflexivity|reflexivity|reflexivity].
Definition good_run : menv := xE xargs (Some (xfirst 2 0)) true None None.
Definition early_run : menv := xE xargs (Some (xfirst 2000 0)) true None None.
Definition bad_run : menv := xE xargs (Some (xfirst 2 0)) false None None.
Definition unsolved_run : menv := xE xargs None true None None.
Definition no_file_run : menv := xE (xargs ++ [txt "-o"; txt "opt.csv"]) (Some (xfirst 2 0)) true None None.
Definition killed_run : menv := xE xargs (Some (xfirst 2 0)) true None (Some (2 * (List.length (cut_header new_params) + 1) + 30)%nat).
Definition pre_run : menv := xE (xargs ++ [txt "--preprocess=1"]) (Some (xfirst 2000 0)) true None None.
Example runs_ex : Forall logged_run [good_run; early_run; bad_run; unsolved_run; no_file_run] /\ (exists P dir inst ip, begin good_run = Begun P dir inst ip true) /\
  map (fun E => ou_code (program E true)) [good_run; early_run; bad_run; unsolved_run; no_file_run] = [Some 0; Some 0; Some 1; Some 1; Some 1]%Z /\
  match after_runs None [good_run; early_run; bad_run; unsolved_run; no_file_run] with
  | Some t => let H := List.length (cut_header new_params) in map (@List.length field) (fst (split_lines t)) = [H; H; H; H; 1 + List.length (param_list new_params) + 2; 1 + List.length (param_list new_params) + 2; 2]%nat
  | None => False
  end.
Proof.
  split; [repeat (constructor; [logged|]); constructor|]. split; [do 4 eexists; vm_compute; reflexivity|]. split; vm_compute; reflexivity.
Qed.
(** A killed run, and the row of the next one behind what it left. *)
Example killed_ex : match after_run killed_run None with
  | Some t => (exists ls u, split_lines t = (ls, u) /\ u <> []) /\ match after_run good_run (Some t) with
      | Some t' => exists ls u, split_lines t' = (ls, []) /\ List.length ls = 3%nat /\ nth_error (map (@List.length field) ls) 2 = Some u /\ (List.length (cut_header new_params) < u)%nat
      | None => False end
  | None => False
  end.
Proof.
  destruct (after_run killed_run None) as [t|] eqn:T; [|vm_compute in T; discriminate]. vm_compute in T. injection T as <-. split.
  - do 2 eexists. split; [vm_compute; reflexivity|discriminate].
  - destruct (after_run good_run _) as [t|] eqn:T; [|vm_compute in T; discriminate]. vm_compute in T. injection T as <-.
    do 2 eexists. split; [vm_compute; reflexivity|]. split; [reflexivity|]. split; [reflexivity|]. apply Nat.ltb_lt. vm_compute. reflexivity.
Qed.
Example missing_ex : begin no_file_run = Bfail true /\ me_kill no_file_run = None.
Proof. split; vm_compute; reflexivity. Qed.
Example preprocessing_ex : exists P dir inst ip, begin pre_run = Begun P dir inst ip true /\ geti P PREPROCESS = 1%Z /\ ou_what (program pre_run true) = Wintegral.
Proof. do 4 eexists. split; [vm_compute; reflexivity|]. split; vm_compute; reflexivity. Qed.
Example early_ex : exists P dir inst ip L, begin early_run = Begun P dir inst ip true /\ size_ok (xfirst 2000 0) /\ getd P AWAY <= 1 # 2 /\ ou_log (program early_run true) = Some L /\ In ("TOTAL_TIME", NumF 0) (map (fun '(n, x) => (n, match x with NumF q => NumF (Qred q) | _ => x end)) (l_times L)).
Proof.
  do 5 eexists. split; [vm_compute; reflexivity|]. split; [vm_compute; discriminate|]. split; [vm_compute; discriminate|]. split; [vm_compute; reflexivity|]. vm_compute. tauto.
Qed.
(** An exactly integral start: M = 1, the solution (1, 1). *)
Example integral_ex : let f := {| f_inst := xinst 1 0; f_value := 0; f_sol := fun _ => 1 |} in
  size_ok f /\ relaxation_solved f /\ integral (i_int (f_inst f)) (ncols (i_lp (f_inst f))) (f_sol f) /\ ou_what (program (xE xargs (Some f) true None None) true) = Wintegral.
Proof.
  cbv zeta. split; [vm_compute; discriminate|]. split; [|split; [intros j _ _; exists 1%Z; reflexivity|vm_compute; reflexivity]].
  split; [split|split].
  - intros j _. cbn. lra.
  - intros i _. cbn [xinst i_lp f_inst f_sol xlp rows rcoef rlo rup above below]. split; [exact Logic.I|]. rewrite !pdot_cons, pdot_nil. cbn. lra.
  - vm_compute. reflexivity.
  - intros x [BX RX]. unfold value. cbn [xinst i_lp f_inst f_value i_off xlp ncols obj seq].
    destruct (RX 0%nat ltac:(cbn; lia)) as [_ R]. cbn [xinst i_lp f_inst xlp rows rcoef rup below] in R. rewrite !pdot_cons, pdot_nil in R. cbn [fst snd] in R. rewrite !Qsumf_cons, Qsumf_nil. cbn [Nat.eqb]. lra.
Qed.
(** Two options for one round, with and without a log file. *)
Example option_count_ex : let a := [txt "-f"; txt "dir/bm23.mps"; txt "-D"; txt "2:4"] in let E b := xE (if b : bool then a ++ [txt "-l"; txt "log.csv"] else a) (Some (xfirst 2 0)) true None None in
  (exists P dir inst ip, begin (E true) = Begun P dir inst ip true /\ parseDisjOptions P ":"%char [] = Done ([2; 4]%Z, 0%Z) /\ geti P ROUNDS = 1%Z /\ ou_what (program (E true) true) = Wundefined) /\
  (exists P dir inst ip, begin (E false) = Begun P dir inst ip false /\ parseDisjOptions P ":"%char [] = Done ([2; 4]%Z, 0%Z) /\ ou_code (program (E false) true) = Some 0%Z).
Proof. cbv zeta. split; do 4 eexists; (split; [vm_compute; reflexivity|]); repeat (split; [vm_compute; reflexivity|]); vm_compute; reflexivity. Qed.
Example concurrent_ex : logged_run good_run /\ ou_code (program good_run true) = Some 0%Z /\
  map (@List.length field) (fst (split_lines (at_once good_run good_run []))) = (let H := List.length (cut_header new_params) in let p := List.length (param_list new_params) in [H + 1 + p; H - 1 - p])%nat.
Proof. split; [logged|]. split; vm_compute; reflexivity. Qed.
