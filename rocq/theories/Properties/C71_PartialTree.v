(** C71: preparing a partial branch-and-bound disjunction — what Cbc is told, and what is made of its search. *)
From Coq Require Import String.
From Verif Require Import Prelude Model.Tolerance Model.LP Model.Disjunction Model.EventHandler Model.TextUtil Model.Parameters Model.Generator Model.Generate Model.PartialTree
  Spec.LPSpec Spec.DisjSpec Spec.TreeSpec Spec.ParamSpec Spec.SearchSpec Proofs.EventHandlerP Proofs.ParamP
  Properties.C06_tree_coverage Properties.C28_tree_size Properties.C29_strategy_digits Properties.C41_SetByName.
From Coq Require Import Permutation.
#[local] Open Scope list_scope.
#[local] Open Scope Z_scope.

(** ** What Cbc is told. *)
Lemma digits_spec s : exists h, getCbcStrategies s = (digit 0 s, digit 1 s, h) /\ h = (if s <? 0 then - digit 2 s else digit 2 s).
Proof.
  set (a := Z.abs s). assert (A0 : (0 <= a)%Z) by apply Z.abs_nonneg.
  assert (D0 : digit 0 s = a mod 10) by (unfold digit; change (10 ^ 0) with 1; rewrite Z.div_1_r; reflexivity).
  assert (D1 : digit 1 s = (a / 10) mod 10) by reflexivity. assert (D2 : digit 2 s = (a / 100) mod 10) by reflexivity.
  set (c := (a mod 10)%Z) in *. set (b := ((a / 10) mod 10)%Z) in *. set (h := ((a / 100) mod 10)%Z) in *. set (r := (a / 1000)%Z).
  assert (E : (a = 1000 * r + 100 * h + 10 * b + c)%Z).
  { pose proof (Z.div_mod a 10 ltac:(lia)) as E1. pose proof (Z.div_mod (a / 10) 10 ltac:(lia)) as E2.
    pose proof (Z.div_mod (a / 100) 10 ltac:(lia)) as E3.
    assert (X1 : (a / 10 / 10 = a / 100)%Z) by (rewrite Z.div_div by lia; reflexivity).
    assert (X2 : (a / 100 / 10 = a / 1000)%Z) by (rewrite Z.div_div by lia; reflexivity).
    unfold c, b, h, r. lia. }
  pose proof (Z.mod_pos_bound a 10 ltac:(lia)) as Bc. pose proof (Z.mod_pos_bound (a / 10) 10 ltac:(lia)) as Bb.
  pose proof (Z.mod_pos_bound (a / 100) 10 ltac:(lia)) as Bh. fold c in Bc. fold b in Bb. fold h in Bh. assert (Br : (0 <= r)%Z) by (apply Z.div_pos; lia).
  destruct (strategy_digits a c b h r ltac:(lia) ltac:(lia) ltac:(lia) Br E) as [P N]. rewrite D0, D1, D2.
  destruct (Z.ltb_spec s 0) as [L|L].
  - exists (- h). split; [|reflexivity]. replace s with (- a)%Z by (unfold a; lia). apply N. unfold a. lia.
  - exists h. split; [|reflexivity]. replace s with a by (unfold a; lia). exact P.
Qed.

(** Each digit of the strategy selects what the documentation says (units: node comparison, tens: branching
    decision, hundreds: choose-variable method, negated for negative strategies); the number of strong-branching
    candidates is the number of columns (-1), its square root rounded up (-2), or the number given; Cbc itself
    neither presolves nor cuts nor watches the time — the handler stops the search, at the limits given. *)
Theorem search_settings : forall P n more terms strong keep strategy limit,
  get_int P DISJ_TERMS = Done terms -> get_int P PARTIAL_BB_NUM_STRONG = Done strong -> get_int P PARTIAL_BB_KEEP_PRUNED_NODES = Done keep ->
  get_int P PARTIAL_BB_STRATEGY = Done strategy -> get_double P PARTIAL_BB_TIMELIMIT = Done limit ->
  exists s, settings P n more = Some s /\
  ((strong = -1 -> s_strong s = Some (Z.of_nat n)) /\
   (strong = -2 -> exists k, s_strong s = Some k /\ 0 <= k /\ Z.of_nat n <= k * k /\ forall j, 0 <= j -> Z.of_nat n <= j * j -> k <= j) /\
   (0 <= strong -> s_strong s = Some strong) /\ (strong < -2 -> s_strong s = None) /\ s_trust s = Some 2147483647) /\
  ((digit 0 strategy = 1 -> s_compare s = BFSCompare) /\ (digit 0 strategy = 2 -> s_compare s = DepthCompare) /\
   (digit 0 strategy = 3 -> s_compare s = EstimateCompare) /\ (digit 0 strategy = 4 -> s_compare s = ObjectiveCompare) /\
   (digit 0 strategy = 0 \/ 5 <= digit 0 strategy -> s_compare s = DefaultCompare)) /\
  ((digit 1 strategy = 1 -> s_decision s = Some DynamicDecision) /\ (digit 1 strategy = 2 -> s_decision s = Some StrongDecision) /\
   (digit 1 strategy = 0 \/ 4 <= digit 1 strategy -> s_decision s = Some DefaultDecision) /\
   (digit 1 strategy = 3 -> s_decision s = None /\ s_choose s = None) /\
   (digit 1 strategy <> 3 -> s_choose s = Some (if strategy <? 0 then - digit 2 strategy else digit 2 strategy, s_strong s, s_trust s))) /\
  s_lp_presolve s = false /\ s_type_presolve s = 0 /\ s_passes_root s = 0 /\ s_passes s = 0 /\ s_when_cuts s = 0 /\
  s_seconds s = dbl_max /\ s_lp_seconds s = dbl_max /\ s_special s = 16 /\
  exists k, s_handler s = (terms, limit, k) /\ (k = true <-> keep <> 0).
Proof.
  intros P n more terms strong keep strategy limit H1 H2 H3 H4 H5. destruct (digits_spec strategy) as (h & E & Eh).
  unfold settings. rewrite H1, H2, H3, H4, H5, E. eexists. split; [reflexivity|]. subst h.
  unfold setCbcParametersForPartialBB. cbv zeta. cbn [s_decision s_choose s_compare s_strong s_trust s_hot s_seconds s_lp_seconds s_lp_presolve s_type_presolve s_passes_root s_passes s_when_cuts s_special s_more_special s_handler lp_setup cbc_new].
  assert (T : told INT_MAX = Some 2147483647) by reflexivity. rewrite T.
  assert (ST : match told (num_strong strong n) with Some v => Some v | None => None end = told (num_strong strong n)) by (destruct (told (num_strong strong n)); reflexivity).
  rewrite ST.
  split.
  { split; [|split; [|split; [|split; [|reflexivity]]]].
    - intros ->. unfold num_strong. cbn [Z.eqb Pos.eqb]. cbv zeta. destruct (Z.eqb_spec (Z.of_nat n) (-2)); [lia|]. unfold told. destruct (Z.leb_spec 0 (Z.of_nat n)); [reflexivity|lia].
    - intros ->. exists (Z.sqrt_up (Z.of_nat n)). unfold num_strong. cbn [Z.eqb Pos.eqb]. cbv zeta. pose proof (Z.sqrt_up_nonneg (Z.of_nat n)) as N0.
      unfold told. destruct (Z.leb_spec 0 (Z.sqrt_up (Z.of_nat n))); [|lia]. split; [reflexivity|]. split; [exact N0|]. destruct n as [|n].
      + split; [reflexivity|]. intros j J _. change (Z.sqrt_up (Z.of_nat 0)) with 0. exact J.
      + assert (PN : 0 < Z.of_nat (S n)) by lia. pose proof (Z.sqrt_up_spec _ PN) as [L U]. split; [lia|]. intros j J Hj.
        destruct (Z.le_gt_cases (Z.sqrt_up (Z.of_nat (S n))) j) as [|G]; [assumption|]. exfalso. assert (j <= Z.pred (Z.sqrt_up (Z.of_nat (S n)))) by lia. nia.
    - intro S0. unfold num_strong. destruct (Z.eqb_spec strong (-1)); [lia|]. cbv zeta. destruct (Z.eqb_spec strong (-2)); [lia|]. unfold told. destruct (Z.leb_spec 0 strong); [reflexivity|lia].
    - intro S0. unfold num_strong. destruct (Z.eqb_spec strong (-1)); [lia|]. cbv zeta. destruct (Z.eqb_spec strong (-2)); [lia|]. unfold told. destruct (Z.leb_spec 0 strong); [lia|reflexivity]. }
  split.
  { unfold the_comparison. split; [intros ->; reflexivity|]. split; [intros ->; reflexivity|]. split; [intros ->; reflexivity|]. split; [intros ->; reflexivity|]. intro G.
    repeat (match goal with |- context [if ?a =? ?b then _ else _] => destruct (Z.eqb_spec a b); [lia|] end). reflexivity. }
  split.
  { unfold the_decision. split; [intros ->; reflexivity|]. split; [intros ->; reflexivity|]. split; [|split; [intros ->; split; reflexivity|]].
    - intro G. repeat (match goal with |- context [if ?a =? ?b then _ else _] => destruct (Z.eqb_spec a b); [lia|] end). reflexivity.
    - intro G. destruct (Z.eqb_spec (digit 1 strategy) 1); [reflexivity|]. destruct (Z.eqb_spec (digit 1 strategy) 2); [reflexivity|]. destruct (Z.eqb_spec (digit 1 strategy) 3); [contradiction|]. reflexivity. }
  repeat (split; [reflexivity|]). exists (negb (keep =? 0)). split; [reflexivity|]. destruct (Z.eqb_spec keep 0); cbn [negb]; split; intro; congruence.
Qed.
Print Assumptions search_settings.
(** Every parameter object has all five, so a search can always be set up. *)
Theorem settings_total : forall st P n more, reach st P -> exists s, settings P n more = Some s.
Proof.
  intros st P n more R. apply reach_wf in R.
  assert (GI : forall k, exists v, get_int P k = Done v) by (intro k; destruct (wf_int P k R) as (p & E & _); unfold get_int; rewrite E; eexists; reflexivity).
  assert (GD : forall k, exists v, get_double P k = Done v) by (intro k; destruct (wf_double P k R) as (p & E & _); unfold get_double; rewrite E; eexists; reflexivity).
  destruct (GI DISJ_TERMS) as (a & A), (GI PARTIAL_BB_NUM_STRONG) as (b & B), (GI PARTIAL_BB_KEEP_PRUNED_NODES) as (c & C), (GI PARTIAL_BB_STRATEGY) as (e & E), (GD PARTIAL_BB_TIMELIMIT) as (f & F).
  destruct (search_settings P n more a b c e f A B C E F) as (s & S & _). exists s. exact S.
Qed.
Print Assumptions settings_total.

(** ** What is made of the search. *)
Section Outcome.
  Variables (P : params) (cfg : hcfg) (ints : nat -> bool) (lo up : nat -> option Q) (root : cnode) (d : disj) (run : search).
  Hypothesis TERMS : get_int P DISJ_TERMS = Done (c_max cfg).
  Hypothesis KEEP : exists k, get_int P PARTIAL_BB_KEEP_PRUNED_NODES = Done k /\ (c_keep cfg = true <-> k <> 0).
  Hypothesis TMP : exists t, get_int P TEMP = Done t.

  (** Fewer than two terms requested: no search, nothing changed. *)
Theorem nothing_requested : c_max cfg < 2 -> prepareDisjunction false true P d run = Prepared D_NO_DISJUNCTION d.
  Proof using TERMS KEEP TMP.
    intro L. unfold prepareDisjunction. destruct KEEP as (k & K & _), TMP as (t & T). rewrite TERMS, K, T. destruct (Z.ltb_spec (c_max cfg) 2); [reflexivity|lia].
  Qed.

  Hypothesis TWO : 2 <= c_max cfg.
  Hypothesis ROOT : root_ok (c_n cfg) ints root.
  Hypothesis END : ended cfg ints lo up root d run.

  Let D := h_disj (se_state run).
  Lemma keep_eq : exists k, get_int P PARTIAL_BB_KEEP_PRUNED_NODES = Done k /\ negb (k =? 0) = c_keep cfg.
  Proof using KEEP.
    destruct KEEP as (k & K & I). exists k. split; [exact K|]. destruct (Z.eqb_spec k 0) as [->|N]; cbn [negb]; destruct (c_keep cfg); try reflexivity; [exfalso; apply (proj1 I eq_refl); reflexivity|symmetry; apply I, N].
  Qed.
  Lemma stopped_size h st a :
    history cfg (lawful cfg ints) (h_init lo up root d) h st -> lawful cfg ints st a -> step cfg st a = EvStop (se_state run) ->
    h_leaf (se_state run) = Z.of_nat (d_num_terms D) /\ (c_keep cfg = false -> Z.of_nat (d_num_terms D) = Z.of_nat (List.length (d_terms D)) + (match h_isol (se_state run) with Some _ => 1 | None => 0 end)).
  Proof using KEEP TWO ROOT.
    intros H L S. unfold D. destruct (c_keep cfg) eqn:K.
    - destruct (stop_size_kept cfg ints lo up root d h st a _ K ROOT ltac:(lia) H L S) as (? & ? & ? & ? & ? & ? & _ & _ & _ & G & _). split; [exact G|discriminate].
    - destruct (stop_size cfg ints lo up root d h st a _ K ROOT ltac:(lia) H L S) as (ord & tu & pok & so & sl & su & EA & G). cbv zeta in G. destruct G as (_ & N & G & _).
      split; [exact G|]. intros _. rewrite N. assert (I : h_isol (se_state run) = h_isol st); [|rewrite I; reflexivity].
      subst a. cbn [step] in S. unfold ev_tree in S. destruct (h_end st || _); [injection S as <-; reflexivity|].
      assert (F1 : forall x y, first_stats cfg x = Some y -> h_isol y = h_isol x).
      { intros x y. unfold first_stats. destruct (Nat.eqb _ _); [|intros [= <-]; reflexivity]. destruct (h_tree x); [discriminate|]. destruct (setNodeStatistics _ _ _ _ _ _ _ _ _); [|discriminate]. intros [= <-]. reflexivity. }
      destruct (first_stats cfg (set_tree st ord)) as [s1|] eqn:E1; [|discriminate]. apply F1 in E1. cbv zeta in S. rewrite K in S.
      destruct ((c_max cfg <=? _) || tu); [|destruct (fixup _ _ _ _); discriminate].
      destruct (saveInformation cfg _ tu pok so) as [[s2 [|]]|] eqn:E2; [destruct (fixup _ _ _ _); discriminate| |discriminate].
      assert (E3 : h_isol s2 = h_isol (set_leaf s1 (count_leaves cfg s1))).
      { unfold saveInformation in E2. cbv zeta in E2. destruct (save_loop _ _ _ _ _ _ _ _ _) as [[acc b]|]; [|discriminate]. injection E2 as <- _. reflexivity. }
      injection S as <-. cbn [set_end h_isol]. rewrite E3. cbn [set_leaf h_isol]. rewrite E1. reflexivity.
  Qed.

  (** The result is one of four, and never an error: *)
Theorem preparation_outcome : exists e d', prepareDisjunction false true P d run = Prepared e d' /\
    (** success exactly if the handler stopped the search and there are at least two terms: the disjunction saved; *)
    (e = D_SUCCESS <-> se_status run = 5 /\ (2 <= d_num_terms D)%nat) /\ (e = D_SUCCESS -> d' = D) /\
    (** an optimal solution exactly if Cbc proved one: its value is the best, the worst and the integer objective; *)
    (e = D_OPTIMAL_SOLUTION_FOUND <-> se_optimal run = true) /\
    (e = D_OPTIMAL_SOLUTION_FOUND -> d_best d' = Some (se_obj run) /\ d_worst d' = Some (se_obj run) /\ d_iobj d' = Some (se_obj run) /\ d_isol d' = Some (se_sol run) /\
       d_terms d' = d_terms D /\ d_num_terms d' = d_num_terms D) /\
    (** otherwise too few terms, or unknown: the search ended by itself with two terms or more from an earlier saving. *)
    (e = D_TOO_FEW_TERMS <-> se_optimal run = false /\ (d_num_terms D <= 1)%nat) /\
    (e = D_UNKNOWN <-> se_optimal run = false /\ (2 <= d_num_terms D)%nat /\ se_status run <> 5) /\
    (e = D_TOO_FEW_TERMS \/ e = D_UNKNOWN -> d' = D) /\ e <> D_NO_DISJUNCTION.
  Proof using TERMS KEEP TMP TWO ROOT END.
    destruct keep_eq as (k & K & KE). destruct TMP as (t & T). unfold prepareDisjunction. rewrite TERMS, K, T, KE.
    destruct (Z.ltb_spec (c_max cfg) 2); [lia|]. cbn [negb traced andb]. unfold traced. cbn [andb]. unfold evaluate, pbb_exit. cbv zeta. fold D.
    destruct (Z.ltb_spec (c_max cfg) 2); [lia|].
    destruct END as [h st a HH L S S5 SO|h HH S ES].
    - destruct (stopped_size h st a HH L S) as [LF LT]. rewrite S5, SO. cbn [Z.eqb Pos.eqb orb]. destruct (Z.leb_spec (Z.of_nat (d_num_terms D)) 1) as [B|B].
      + exists D_TOO_FEW_TERMS, D. split; [reflexivity|]. split; [split; [discriminate|lia]|]. split; [discriminate|]. split; [split; discriminate|]. split; [discriminate|].
        split; [split; [intros _; split; [reflexivity|lia]|reflexivity]|]. split; [split; [discriminate|lia]|]. split; [reflexivity|discriminate].
      + assert (Q1 : Z.of_nat (d_num_terms D) =? h_leaf (se_state run) = true) by (apply Z.eqb_eq; symmetry; exact LF). rewrite Q1. cbn [negb orb].
        assert (Q2 : negb (c_keep cfg) && negb (Z.of_nat (d_num_terms D) =? Z.of_nat (List.length (d_terms D)) + (if match h_isol (se_state run) with Some _ => true | None => false end then 1 else 0)) = false).
        { destruct (c_keep cfg) eqn:KC; [reflexivity|]. cbn [negb andb]. rewrite (LT eq_refl). destruct (h_isol (se_state run)); rewrite Z.eqb_refl; reflexivity. }
        rewrite Q2. exists D_SUCCESS, D. split; [reflexivity|]. split; [split; [intros _; split; [reflexivity|lia]|reflexivity]|]. split; [reflexivity|]. split; [split; discriminate|]. split; [discriminate|].
        split; [split; [discriminate|lia]|]. split; [split; [discriminate|intros (_ & _ & X); congruence]|]. split; [intros [X|X]; discriminate|discriminate].
    - assert (S012 : ((se_status run =? 0) || (se_status run =? 1) || (se_status run =? 2)) = true) by (destruct S as [->|[->| ->]]; reflexivity).
      assert (N5 : se_status run <> 5) by (destruct S as [->|[->| ->]]; discriminate).
      rewrite S012. cbn [orb]. destruct (se_optimal run) eqn:SO.
      + exists D_OPTIMAL_SOLUTION_FOUND. eexists. split; [reflexivity|]. split; [split; [discriminate|intros [X _]; contradiction]|]. split; [discriminate|]. split; [split; reflexivity|].
        split; [intros _; repeat split|]. split; [split; [discriminate|intros [X _]; discriminate]|]. split; [split; [discriminate|intros [X _]; discriminate]|]. split; [intros [X|X]; discriminate|discriminate].
      + destruct (Z.leb_spec (Z.of_nat (d_num_terms D)) 1) as [B|B].
        * exists D_TOO_FEW_TERMS, D. split; [reflexivity|]. split; [split; [discriminate|lia]|]. split; [discriminate|]. split; [split; discriminate|]. split; [discriminate|].
          split; [split; [intros _; split; [reflexivity|lia]|reflexivity]|]. split; [split; [discriminate|lia]|]. split; [reflexivity|discriminate].
        * exists D_UNKNOWN, D. split; [reflexivity|]. split; [split; [discriminate|intros [X _]; contradiction]|]. split; [discriminate|]. split; [split; discriminate|]. split; [discriminate|].
          split; [split; [discriminate|lia]|]. split; [split; [intros _; split; [reflexivity|split; [lia|exact N5]]|reflexivity]|]. split; [reflexivity|discriminate].
  Qed.

End Outcome.
Print Assumptions nothing_requested.
Print Assumptions preparation_outcome.

(** A successful preparation covers what C06 says: every integer point of the root box that no event of the search
    gave up lies in one of its (at least two) terms. *)
Theorem success_covers : forall P cfg ints lo up root d run d' h st a,
  get_int P DISJ_TERMS = Done (c_max cfg) -> (exists k, get_int P PARTIAL_BB_KEEP_PRUNED_NODES = Done k /\ (c_keep cfg = true <-> k <> 0)) -> (exists t, get_int P TEMP = Done t) ->
  root_ok (c_n cfg) ints root -> history cfg (lawful cfg ints) (h_init lo up root d) h st -> lawful cfg ints st a -> step cfg st a = EvStop (se_state run) ->
  se_status run = 5 -> se_optimal run = false -> prepareDisjunction false true P d run = Prepared D_SUCCESS d' ->
  (2 <= d_num_terms d')%nat /\
  forall x, integral ints (c_n cfg) x -> TreeSpec.in_bounds (c_n cfg) (cn_lo root) (cn_hi root) x -> (forall s b, In (s, b) (h ++ [(st, a)]) -> ~ gives_up cfg s b x) -> in_disj d' x.
Proof.
  intros P cfg ints lo up root d run d' h st a HT HK HTmp RO H L S S5 SO E.
  assert (TW : 2 <= c_max cfg).
  { destruct (Z.le_gt_cases 2 (c_max cfg)) as [|G]; [assumption|]. rewrite (nothing_requested P cfg d run HT HK HTmp G) in E. discriminate. }
  destruct (preparation_outcome P cfg ints lo up root d run HT HK HTmp TW RO (by_event _ _ _ _ _ _ _ h st a H L S S5 SO)) as (e & d1 & E1 & OK & OD & _).
  rewrite E in E1. injection E1 as <- <-. rewrite (OD eq_refl). split; [apply OK; reflexivity|]. intros x XI XB XG.
  apply (tree_covers cfg ints lo up root d h st a (se_state run) RO ltac:(lia) H L S x XI XB XG).
Qed.
Print Assumptions success_covers.

(** ** The search of C06: two binary variables, three terms. *)
Definition yP : params := Eval vm_compute in match set_int new_params DISJ_TERMS 3 with Done P => P | _ => new_params end.
Definition yrun : search := {| se_state := ex_s3; se_status := 5; se_optimal := false; se_obj := 0; se_sol := fun _ => 0%Q |}.
Example success_example : get_int yP DISJ_TERMS = Done 3 /\ prepareDisjunction false true yP disj_new yrun = Prepared D_SUCCESS (h_disj ex_s3) /\ d_num_terms (h_disj ex_s3) = 3%nat /\
  (forall x, integral (fun _ => true) 2 x -> TreeSpec.in_bounds 2 (ex_box 0 0) (ex_box 1 1) x -> in_disj (h_disj ex_s3) x).
Proof.
  split; [vm_compute; reflexivity|]. split; [reflexivity|]. split; [vm_compute; reflexivity|]. exact (proj2 (proj2 (proj2 (proj2 tree_covers_example)))).
Qed.
Example optimal_example : exists d', prepareDisjunction false true yP disj_new {| se_state := ex_s2; se_status := 0; se_optimal := true; se_obj := 7; se_sol := fun _ => 1%Q |} = Prepared D_OPTIMAL_SOLUTION_FOUND d' /\
  d_best d' = Some 7%Q /\ d_worst d' = Some 7%Q /\ d_iobj d' = Some 7%Q.
Proof. eexists. split; [reflexivity|]. repeat split. Qed.

(** ** Refuted. *)
(** "A preparation that fails leaves no terms": the handler writes what it saves into the disjunction even when it
    finds the tree too small and goes on; if Cbc then finishes (here: infeasible), those terms stay. *)
Definition ylate : search := {| se_state := after (ex_cfg false 3) ex_s2 (tree_now ex_s2 half_solve); se_status := 0; se_optimal := false; se_obj := 0; se_sol := fun _ => 0%Q |}.
Theorem failed_leaves_terms_refuted : exists d',
  ended (ex_cfg false 3) (fun _ => true) (ex_box 0 0) (ex_box 1 1) ex_root disj_new ylate /\
  prepareDisjunction false true yP disj_new ylate = Prepared D_TOO_FEW_TERMS d' /\ List.length (d_terms d') = 1%nat.
Proof.
  exists (h_disj (se_state ylate)). split; [|split; [reflexivity|vm_compute; reflexivity]].
  apply (by_itself _ _ _ _ _ _ _ [(ex_s0, tree_now ex_s0 ok_solve); (ex_s1, ABranch 0 (Created ex_child)); (ex_s2, tree_now ex_s2 half_solve)]).
  - apply (hist_step _ _ _ [(ex_s0, tree_now ex_s0 ok_solve); (ex_s1, ABranch 0 (Created ex_child))] ex_s2).
    + exact (proj1 tree_covers_example).
    + exact (proj1 (proj2 tree_covers_example)).
    + reflexivity.
  - left. reflexivity.
  - discriminate.
Qed.
Print Assumptions failed_leaves_terms_refuted.
(** "Preparing again throws away the old disjunction": it is only thrown away when something is saved. *)
Theorem prepare_again_refuted : exists run,
  ended (ex_cfg false 3) (fun _ => true) (ex_box 0 0) (ex_box 1 1) ex_root (h_disj ex_s3) run /\
  prepareDisjunction false true yP (h_disj ex_s3) run = Prepared D_UNKNOWN (h_disj ex_s3).
Proof.
  exists {| se_state := h_init (ex_box 0 0) (ex_box 1 1) ex_root (h_disj ex_s3); se_status := 0; se_optimal := false; se_obj := 0; se_sol := fun _ => 0%Q |}. split; [|reflexivity].
  apply (by_itself _ _ _ _ _ _ _ []); [constructor|left; reflexivity|discriminate].
Qed.
Print Assumptions prepare_again_refuted.
(** "The hot-start limit is lifted for the search" (PartialBBDisjunction.cpp:153): it is 100. *)
Theorem hot_start_refuted : forall P n more s, settings P n more = Some s -> s_hot s = 100.
Proof.
  intros P n more s. unfold settings. destruct (get_int P DISJ_TERMS); try discriminate. destruct (get_int P PARTIAL_BB_NUM_STRONG); try discriminate.
  destruct (get_int P PARTIAL_BB_KEEP_PRUNED_NODES); try discriminate. destruct (get_int P PARTIAL_BB_STRATEGY) as [v| | |]; try discriminate. destruct (get_double P PARTIAL_BB_TIMELIMIT); try discriminate.
  destruct (getCbcStrategies v) as [[c b] h]. intros [= <-]. reflexivity.
Qed.
Print Assumptions hot_start_refuted.
Definition ystrategy (v : Z) : params := match set_int yP PARTIAL_BB_STRATEGY v with Done P => P | _ => new_params end.
(** "5: objective_reverse" (comment of lines 367-368): the default comparison is used, as for 0. *)
Theorem compare_five_refuted : settings (ystrategy 5) 3 0 = settings (ystrategy 0) 3 0.
Proof. vm_compute. reflexivity. Qed.
Print Assumptions compare_five_refuted.
(** With tens digit 3 the hundreds digit is ignored. *)
Theorem choose_ignored_refuted : forall k, In k [0; 1; 2; 3; 4; 5; 6; 7; 8; 9] -> settings (ystrategy (100 * k + 34)) 3 0 = settings (ystrategy 34) 3 0.
Proof. intros k H. repeat (destruct H as [<-|H]; [vm_compute; reflexivity|]). destruct H. Qed.
Print Assumptions choose_ignored_refuted.
(** "Clp's flag 256 is set for the search": 256 is added, so that a solver that already has the flag loses it. *)
Theorem special_flag_refuted : exists s, settings yP 3 256 = Some s /\ s_more_special s = 512 /\ Z.land (s_more_special s) 256 = 0.
Proof. eexists. split; [vm_compute; reflexivity|]. split; reflexivity. Qed.
Print Assumptions special_flag_refuted.
Theorem special_flag : forall P n more s, settings P n more = Some s -> Z.land more 256 = 0 -> Z.land (s_more_special s) 256 = 256.
Proof.
  intros P n more s. unfold settings. destruct (get_int P DISJ_TERMS); try discriminate. destruct (get_int P PARTIAL_BB_NUM_STRONG); try discriminate.
  destruct (get_int P PARTIAL_BB_KEEP_PRUNED_NODES); try discriminate. destruct (get_int P PARTIAL_BB_STRATEGY) as [v| | |]; try discriminate. destruct (get_double P PARTIAL_BB_TIMELIMIT); try discriminate.
  destruct (getCbcStrategies v) as [[c b] h]. intros [= <-] H. cbn [s_more_special setCbcParametersForPartialBB lp_setup].
  unfold setCbcParametersForPartialBB. cbv zeta. cbn [s_more_special lp_setup]. rewrite (Z.add_nocarry_lxor more 256 H).
  apply Z.bits_inj'. intros k _. rewrite Z.land_spec, Z.lxor_spec.
  assert (B : Z.testbit more k && Z.testbit 256 k = false) by (rewrite <- Z.land_spec, H; apply Z.bits_0).
  destruct (Z.testbit more k), (Z.testbit 256 k); try discriminate B; reflexivity.
Qed.
Print Assumptions special_flag.
(** "A solver of another class is reported" (lines 114-119): the cast gives a null pointer, which is used. *)
Theorem other_solver_refuted : forall run, prepareDisjunction false false yP disj_new run = PrepUndef.
Proof. reflexivity. Qed.
Print Assumptions other_solver_refuted.
(** With TRACE and the option to return after drawing the tree, success is reported whatever the search found —
    here an empty disjunction after a finished search. *)
Definition ytemp : params := match set_int yP TEMP (1024 + 16384) with Done P => P | _ => new_params end.
Theorem traced_success_refuted : exists run d', ended (ex_cfg false 3) (fun _ => true) (ex_box 0 0) (ex_box 1 1) ex_root disj_new run /\ se_optimal run = true /\
  prepareDisjunction true true ytemp disj_new run = Prepared D_SUCCESS d' /\ d_num_terms d' = 0%nat.
Proof.
  exists {| se_state := ex_s0; se_status := 0; se_optimal := true; se_obj := 7; se_sol := fun _ => 1%Q |}. eexists. split; [|split; [reflexivity|split; [vm_compute; reflexivity|reflexivity]]].
  apply (by_itself _ _ _ _ _ _ _ []); [constructor|left; reflexivity|reflexivity].
Qed.
Print Assumptions traced_success_refuted.

(** The options that ask for a drawing: with the one to exit (and not the one to return) the program ends after the search; with
    neither, or without TRACE, drawing changes nothing. *)
Theorem drawing_options : forall P d run n kp temp, get_int P DISJ_TERMS = Done n -> get_int P PARTIAL_BB_KEEP_PRUNED_NODES = Done kp -> get_int P TEMP = Done temp -> 2 <= n ->
  (use_temp_option (Z.abs temp) GEN_TIKZ_STRING = true -> use_temp_option temp GEN_TIKZ_STRING_AND_RETURN = false -> use_temp_option temp GEN_TIKZ_STRING_AND_EXIT = true ->
     prepareDisjunction true true P d run = PrepExit) /\
  (use_temp_option (Z.abs temp) GEN_TIKZ_STRING = false \/ use_temp_option temp GEN_TIKZ_STRING_AND_RETURN = false /\ use_temp_option temp GEN_TIKZ_STRING_AND_EXIT = false ->
     prepareDisjunction true true P d run = prepareDisjunction false true P d run).
Proof.
  intros P d run n kp temp A B C N. unfold prepareDisjunction. rewrite A, B, C. destruct (Z.ltb_spec n 2); [lia|]. cbn [negb]. unfold traced. cbn [andb]. split.
  - intros -> -> ->. reflexivity.
  - intros [-> |[-> ->]]; [reflexivity|]. destruct (use_temp_option _ _); reflexivity.
Qed.
Print Assumptions drawing_options.
Example drawing_exit : exists P, set_int yP TEMP (1024 + 32768) = Done P /\ forall run, prepareDisjunction true true P disj_new run = PrepExit.
Proof. eexists. split; [vm_compute; reflexivity|]. intros run. vm_compute. reflexivity. Qed.

(** ** Sets of trees. *)
(** One parameter set per number, with that number of terms and everything else unchanged. *)
Theorem trees_requested : forall st P opts, reach st P -> (forall k, In k opts -> 2 <= k <= 2147483647) ->
  exists Ps, tree_params P opts = Done Ps /\ Forall2 (fun k P' => get_int P' DISJ_TERMS = Done k /\ same_but_int DISJ_TERMS P P') opts Ps.
Proof.
  intros st P opts R. pose proof (reach_wf _ _ R) as W. intro B. unfold tree_params.
  assert (X : existsb (fun k => k <? 2) opts = false).
  { apply Bool.not_true_iff_false. intro E. apply existsb_exists in E. destruct E as (k & K & L). apply Z.ltb_lt in L. specialize (B k K). lia. }
  rewrite X. clear X. induction opts as [|k r IH]; [exists []; split; [reflexivity|constructor]|].
  destruct IH as (Ps & E & F); [intros j J; apply B; right; exact J|].
  assert (SK : exists P', set_int P DISJ_TERMS k = Done P').
  { destruct (set_int_outcome P DISJ_TERMS k W) as [(P' & E' & _)|[_ N]]; [unfold is_int; specialize (B k (or_introl eq_refl)); lia|exists P'; exact E'|]. exfalso. apply N. exact Logic.I. }
  destruct SK as (P' & SK). exists (P' :: Ps). cbn [all_set]. rewrite SK, E. split; [reflexivity|]. constructor; [apply (proj1 (set_then_get P P')), SK|exact F].
Qed.
Print Assumptions trees_requested.
Example trees_example : exists P2 P4, tree_params new_params [2; 4] = Done [P2; P4] /\ get_int P2 DISJ_TERMS = Done 2 /\ get_int P4 DISJ_TERMS = Done 4.
Proof. eexists. eexists. split; [vm_compute; reflexivity|]. split; vm_compute; reflexivity. Qed.
(** Refuted: "numbers below two are left out" (CglVPC.cpp:322-325) — the vector is changed while it is traversed. *)
Theorem small_numbers_refuted : forall P opts k, In k opts -> k < 2 -> tree_params P opts = Undef.
Proof.
  intros P opts k K L. unfold tree_params. assert (X : existsb (fun k => k <? 2) opts = true) by (apply existsb_exists; exists k; split; [exact K|apply Z.ltb_lt, L]). rewrite X. reflexivity.
Qed.
Print Assumptions small_numbers_refuted.

Lemma last_indep {A} (a : A) : forall l x y, last (a :: l) x = last (a :: l) y.
Proof. intros l. revert a. induction l as [|b l IH]; intros a x y; [reflexivity|]. apply (IH b x y). Qed.
(** The reason reported for the set: an optimal solution exactly if some tree found one; otherwise the reason of the
    last tree (unknown for an empty set). *)
Theorem set_reason_spec : forall preps,
  (set_reason preps D_UNKNOWN = D_OPTIMAL_SOLUTION_FOUND <-> In D_OPTIMAL_SOLUTION_FOUND preps) /\
  (~ In D_OPTIMAL_SOLUTION_FOUND preps -> set_reason preps D_UNKNOWN = last preps D_UNKNOWN).
Proof.
  assert (G : forall preps e0, (set_reason preps e0 = D_OPTIMAL_SOLUTION_FOUND <-> In D_OPTIMAL_SOLUTION_FOUND preps \/ preps = [] /\ e0 = D_OPTIMAL_SOLUTION_FOUND) /\
    (~ In D_OPTIMAL_SOLUTION_FOUND preps -> set_reason preps e0 = last preps e0)).
  { induction preps as [|e r IH]; intro e0; [split; [split; [intro H; right; split; [reflexivity|exact H]|intros [[]|[_ H]]; exact H]|reflexivity]|].
    cbn [set_reason]. destruct (IH e) as [I1 I2]. assert (DE : e = D_OPTIMAL_SOLUTION_FOUND \/ e <> D_OPTIMAL_SOLUTION_FOUND) by (destruct e; (left; reflexivity) || (right; discriminate)).
    destruct DE as [->|N].
    - split; [split; [intros _; left; left; reflexivity|reflexivity]|]. intro H. exfalso. apply H. left. reflexivity.
    - assert (EE : match e with D_OPTIMAL_SOLUTION_FOUND => e | _ => set_reason r e end = set_reason r e) by (destruct e; try reflexivity; contradiction). rewrite EE. split.
      + rewrite I1. split; [intros [H|[_ H]]; [left; right; exact H|contradiction]|intros [[H|H]|[H _]]; [contradiction|left; exact H|discriminate]].
      + intro H. rewrite I2 by (intro X; apply H; right; exact X). destruct r as [|e1 r]; [reflexivity|]. change (last (e :: e1 :: r) e0) with (last (e1 :: r) e0). apply last_indep. }
  intro preps. destruct (G preps D_UNKNOWN) as [G1 G2]. split; [|exact G2]. rewrite G1. split; [intros [H|[_ H]]; [exact H|discriminate]|intro H; left; exact H].
Qed.
Print Assumptions set_reason_spec.
(** Refuted: "success means that every tree succeeded" and "a tree that succeeded is used": only the last tree counts. *)
Theorem set_success_refuted : set_reason [D_TOO_FEW_TERMS; D_SUCCESS] D_UNKNOWN = D_SUCCESS /\ set_reason [D_SUCCESS; D_TOO_FEW_TERMS] D_UNKNOWN = D_TOO_FEW_TERMS.
Proof. split; reflexivity. Qed.
Print Assumptions set_success_refuted.
(** Strategy -123 with the square root of 10 columns. *)
Example settings_example : exists P s, set_int (ystrategy (-123)) PARTIAL_BB_NUM_STRONG (-2) = Done P /\ settings P 10 0 = Some s /\
  s_strong s = Some 4 /\ s_compare s = EstimateCompare /\ s_decision s = Some StrongDecision /\ s_choose s = Some (-1, Some 4, Some 2147483647).
Proof. eexists. eexists. split; [vm_compute; reflexivity|]. split; [vm_compute; reflexivity|]. repeat split. Qed.
