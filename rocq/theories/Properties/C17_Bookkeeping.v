(** C17: the per-cut label arrays and the counters describe exactly the cuts of the call. *)
From Verif Require Import Prelude Model.Generator Model.Generate Spec.GenSpec Proofs.GeneratorP Proofs.GenExamples.

(** Where a produced cut and its labels come from: an objective tried during the call, a root
    inequality common to all terms, or the objective cut. *)
Definition origin (o : callans) (c : cut) (t : cuttype) (h : objtype) : Prop :=
  (t = VPC /\ exists a, call_attempt o a /\ a_cut a = c /\ a_heur a = h) \/
  (t = ONE_SIDED_CUT /\ h = ONE_SIDED /\ In c (ca_root o)) \/
  (t = OPTIMALITY_CUT /\ h = OBJ_CUT /\ c = ca_objcut o).

Lemma count_type_sum l : Zsum (map (fun t => count_type t l) all_types) = Z.of_nat (length l).
Proof.
  induction l as [|x r IH]; [reflexivity|]. cbn [all_types map Zsum count_type length] in *.
  destruct x; cbn [cuttype_eqb]; lia.
Qed.
Lemma count_heur_sum l : Zsum (map (fun t => count_heur t l) all_heurs) = Z.of_nat (length l).
Proof.
  induction l as [|x r IH]; [reflexivity|]. cbn [all_heurs map Zsum count_heur length] in *.
  destruct x; cbn [objtype_eqb objtype_idx Nat.eqb]; lia.
Qed.
Lemma map_ext_Z {A} (f g : A -> Z) l : (forall x, f x = g x) -> map f l = map g l.
Proof. intro H. apply map_ext. exact H. Qed.

(** For every generator not prepared for repeated use (or started without cuts), every input
    collection and every behaviour of solver, clock and heuristics: after the call there is exactly
    one type, heuristic and disjunction label per cut produced, the collection consists of the
    given cuts plus the produced ones, the counters equal the number of labels of that kind and add
    up to the number of cuts, and each label tells where its cut came from. *)
Theorem bookkeeping_aligned E v given o v' cuts :
  generateCuts E v given o = Some (v', cuts) -> past_entry v o ->
  g_repeat (v_g v) = false \/ given = [] ->
  let g := v_g v' in
  cuts = g_cuts g /\
  length cuts = (length given + g_num_cuts g)%nat /\
  length (g_type g) = g_num_cuts g /\ length (g_heur g) = g_num_cuts g /\ length (g_disj g) = g_num_cuts g /\
  (forall t, g_ntype g t = count_type t (g_type g)) /\
  (forall h, g_nheur g h = count_heur h (g_heur g)) /\
  Zsum (map (g_ntype g) all_types) = Z.of_nat (g_num_cuts g) /\
  Zsum (map (g_nheur g) all_heurs) = Z.of_nat (g_num_cuts g) /\
  (forall i c t h, nth_error cuts (length given + i) = Some c ->
     nth_error (g_type g) i = Some t -> nth_error (g_heur g) i = Some h -> origin o (ec c) t h).
Proof.
  intros H He Hr.
  destruct (generateCuts_ind
    (fun g => (ginv g /\ labelled (origin o) g) /\ g_init g = length given) E v given o v' cuts H He)
    as [[[[I C] L] Hi] ->].
  - intros g0 F. split; [split; [exact (fresh_ginv _ _ _ _ Hr F)|]|apply (fresh_counters _ _ _ _ F)].
    destruct (fresh_counters _ _ _ _ F) as (_ & _ & _ & Hi & Hc & _).
    intros i c t h H1. exfalso. rewrite Hi, Hc in H1.
    assert (K : nth_error given (length given + i) <> None) by congruence. apply nth_error_Some in K. lia.
  - intros fs g0 K. exact K.
  - intros j g0 K. exact K.
  - intros c g0 Hin [[I L] Hi] _ _. split; [split|exact Hi]; [apply insertCut_ginv; exact I|].
    apply insertCut_labelled; [apply I|exact L|]. right; left. auto.
  - intros g0 id _ F _. pose proof (fresh_ginv _ _ _ _ Hr F) as I0.
    assert (I : ginv (with_curr g0 id)) by exact I0.
    destruct (fresh_counters _ _ _ _ F) as (_ & _ & _ & Hi & Hc & _).
    split; [split; [apply insertCut_ginv; exact I|]|exact Hi].
    apply insertCut_labelled; [apply I| |right; right; auto].
    intros i c t h H1. exfalso. cbn in H1. rewrite Hi, Hc in H1.
    assert (K : nth_error given (length given + i) <> None) by congruence. apply nth_error_Some in K. lia.
  - intros a g0 g' n Ha [[I L] Hi] Hg. split; [split|].
    + eapply genCut_ginv; eassumption.
    + eapply genCut_labelled; [exact I|exact Hg|exact L|]. left. split; [reflexivity|]. exists a. auto.
    + apply genCut_frame in Hg. destruct Hg as [Hg _]. congruence.
  - destruct I as (A & B & D & F & T & U).
    cbv zeta. split; [reflexivity|]. split; [congruence|]. split; [exact A|]. split; [exact B|]. split; [exact D|].
    split; [exact T|]. split; [exact U|].
    split. { rewrite (map_ext_Z _ _ _ T), count_type_sum, A. reflexivity. }
    split. { rewrite (map_ext_Z _ _ _ U), count_heur_sum, B. reflexivity. }
    intros i c t h H1. apply L. rewrite Hi. exact H1.
Qed.
Print Assumptions bookkeeping_aligned.

(** The statistics arrays are never accessed out of range: an objective is always processed to the end. *)
Theorem bookkeeping_in_range E v given o g a :
  g_repeat (v_g v) = false \/ given = [] -> fresh_state v given o g ->
  forall l g1, genCuts E g l = Some g1 -> genCut E g1 a <> None.
Proof.
  intros Hr F l g1 H. apply genCut_some.
  eapply (genCuts_ind ginv E l g g1); [|exact (fresh_ginv _ _ _ _ Hr F)|exact H].
  intros b h h' n _. apply genCut_ginv.
Qed.
Print Assumptions bookkeeping_in_range.

Example bookkeeping_witness :
  past_entry exv exo /\ g_repeat (v_g exv) = false /\ exgiven <> [] /\
  exists v', generateCuts exE exv exgiven exo = Some (v', g_cuts (v_g v')) /\ g_num_cuts (v_g v') = 3%nat.
Proof.
  split; [split; [right; discriminate|reflexivity]|]. split; [reflexivity|]. split; [discriminate|].
  destruct exrun_result as (v' & H & _ & _ & _ & _ & Hn & _). exists v'. auto.
Qed.

(** *** Repeated use with replacement of given cuts: lengths stay equal to the collection's. *)
Definition rep_aligned (g : gstate) : Prop :=
  g_canrep g = true /\ length (g_type g) = length (g_cuts g) /\ length (g_heur g) = length (g_cuts g) /\
  length (g_disj g) = length (g_cuts g) /\ length (g_cuts g) = (g_init g + g_num_cuts g)%nat.

Lemma rep_insert g c t h d : rep_aligned g -> rep_aligned (insertCut g c t h d).
Proof.
  unfold rep_aligned. cbn [insertCut g_canrep g_type g_heur g_disj g_cuts g_init g_num_cuts].
  rewrite !app_length. cbn [length]. intuition lia.
Qed.
Lemma rep_genCut E g a g' n : rep_aligned g -> genCut E g a = Some (g', n) -> rep_aligned g'.
Proof.
  intros R H. apply genCut_effect in H. destruct H as [g1 m He -> _ _].
  assert (R0 : rep_aligned (countObjective g (a_heur a))) by exact R.
  assert (R1 : rep_aligned g1).
  { destruct He as [| |i oc g1 ? ? ? ? ? ? ? Hr]; [exact R0|apply rep_insert; exact R0|].
    unfold replaceCut in Hr. destruct (nth_error (g_heur _) _); [|discriminate].
    destruct (nth_error (g_type _) _); [|discriminate]. injection Hr as <-.
    unfold rep_aligned in *. cbn [g_canrep g_type g_heur g_disj g_cuts g_init g_num_cuts] in *.
    rewrite !set_nth_length. exact R0. }
  exact R1.
Qed.

Theorem bookkeeping_repeated E v given o v' cuts :
  generateCuts E v given o = Some (v', cuts) -> past_entry v o ->
  g_repeat (v_g v) = true -> g_canrep (v_g v) = true -> given <> [] ->
  length (g_heur (v_g v)) = length (g_type (v_g v)) -> length (g_disj (v_g v)) = length (g_type (v_g v)) ->
  let g := v_g v' in
  length (g_type g) = length cuts /\ length (g_heur g) = length cuts /\ length (g_disj g) = length cuts /\
  length cuts = (length given + g_num_cuts g)%nat.
Proof.
  intros H He Hr Hcr Hne Hh Hd.
  destruct (generateCuts_ind (fun g => rep_aligned g /\ g_init g = length given) E v given o v' cuts H He)
    as [[(A & B & C & D & F) Hi] ->].
  - intros g0 [g00 [Hb ->]]. unfold beginRound in Hb. cbv zeta in Hb.
    cbn [with_mode setupAsNew g_repeat g_canrep g_type g_heur g_disj] in Hb. rewrite Hr, Hcr in Hb.
    assert (E0 : Nat.eqb (length given) 0 = false) by (destruct given; [congruence|reflexivity]).
    rewrite E0 in Hb. cbn [negb andb] in Hb.
    destruct (Nat.eqb_spec (length (g_type (v_g v))) (length given)) as [El|]; [|discriminate].
    injection Hb as <-. unfold rep_aligned.
    cbn [with_limit g_canrep g_type g_heur g_disj g_cuts g_init g_num_cuts]. repeat split; lia.
  - intros fs g0 K. exact K.
  - intros j g0 K. exact K.
  - intros c g0 _ [K Hi] _ _. split; [apply rep_insert; exact K|exact Hi].
  - intros g0 id _ [g00 [Hb ->]] _. unfold beginRound in Hb. cbv zeta in Hb.
    cbn [with_mode setupAsNew g_repeat g_canrep g_type g_heur g_disj] in Hb. rewrite Hr, Hcr in Hb.
    assert (E0 : Nat.eqb (length given) 0 = false) by (destruct given; [congruence|reflexivity]).
    rewrite E0 in Hb. cbn [negb andb] in Hb.
    destruct (Nat.eqb_spec (length (g_type (v_g v))) (length given)) as [El|]; [|discriminate].
    injection Hb as <-. split; [|reflexivity]. apply rep_insert. unfold rep_aligned.
    cbn [with_limit with_curr g_canrep g_type g_heur g_disj g_cuts g_init g_num_cuts]. repeat split; lia.
  - intros a g0 g' n _ [K Hi] Hg. split; [eapply rep_genCut; eassumption|].
    apply genCut_frame in Hg. destruct Hg as [Hg _]. congruence.
  - cbv zeta. rewrite <- Hi. auto.
Qed.
Print Assumptions bookkeeping_repeated.

(** A generator prepared for repeated use whose arrays describe the cuts it is given. *)
Definition repg (canrep : bool) (types : list cuttype) (heurs : list objtype) (ids : list nat) : gstate :=
  {| g_cuts := []; g_type := types; g_heur := heurs; g_disj := ids;
     g_ntype := fun _ => 0%Z; g_nheur := fun _ => 0%Z; g_nobj := fun _ => 0%Z; g_nfailheur := fun _ => 0%Z;
     g_nfails := fun _ => 0%Z; g_num_cuts := 0; g_num_obj := 0; g_num_fail := 0; g_init := 0;
     g_canrep := canrep; g_repeat := true; g_mode := PARTIAL_BB; g_curr := 0; g_limit := 10 |}.
Definition repv canrep types heurs ids : vpc := with_g exv (repg canrep types heurs ids).
Definition one_run (l : list attempt) : callans :=
  {| ca_time0 := false; ca_nfrac := 3; ca_nfrac_default := 3; ca_optimal := true; ca_disj := D_SUCCESS;
     ca_objcut := mkc [] 0; ca_objcut_disj := 0; ca_root := []; ca_root_ok := true;
     ca_root_fails := []; ca_setsize := 2;
     ca_run := fun _ => {| dr_time0 := false; dr_setup_fails := []; dr_time1 := false; dr_best := 3; dr_worst := 5;
       dr_lpopt := 1; dr_prlp := SUCCESS_EXIT; dr_prlp_fails := []; dr_user := dr_user exrun;
       dr_target := l; dr_time2 := false; dr_solvetime2 := 0 |} |}.

Example bookkeeping_repeated_witness :
  exists v', generateCuts exE (repv true [VPC] [DISJ_LB] [O]) exgiven (one_run [okat ALL_ONES (mkc [(0%nat, 1)] 1)])
    = Some (v', g_cuts (v_g v')) /\ g_num_cuts (v_g v') = 1%nat.
Proof.
  exists (match generateCuts exE (repv true [VPC] [DISJ_LB] [O]) exgiven (one_run [okat ALL_ONES (mkc [(0%nat, 1)] 1)])
          with Some (v, _) => v | None => exv end).
  vm_compute. split; reflexivity.
Qed.

(** In repeated use the counters do not describe the collection: they restart at zero but are
    decremented when a given cut is replaced, and become negative. *)
Theorem bookkeeping_counters_repeated_refuted :
  exists E v given o v' cuts, generateCuts E v given o = Some (v', cuts) /\ past_entry v o /\
    g_repeat (v_g v) = true /\ g_canrep (v_g v) = true /\ length (g_type (v_g v)) = length given /\
    g_num_cuts (v_g v') = O /\ (g_nheur (v_g v') DISJ_LB < 0)%Z.
Proof.
  exists exE, (repv true [VPC] [DISJ_LB] [O]), exgiven, (one_run [okat ALL_ONES (mkc [(7%nat, 2); (8%nat, 1)] 3)]).
  eexists. eexists. split; [vm_compute; reflexivity|].
  split; [split; [right; discriminate|reflexivity]|].
  split; [reflexivity|]. split; [reflexivity|]. split; [reflexivity|]. split; reflexivity.
Qed.
Print Assumptions bookkeeping_counters_repeated_refuted.

(** In repeated use without replacement of given cuts, the labels of the *old* cuts are overwritten:
    after replacing the cut just produced, the label array says the given cut was produced by the
    new heuristic, and the entry of the replaced cut keeps the old heuristic. *)
Theorem bookkeeping_shifted_refuted :
  exists E v given o v' cuts, generateCuts E v given o = Some (v', cuts) /\ past_entry v o /\
    g_repeat (v_g v) = true /\ length (g_type (v_g v)) = length given /\
    g_heur (v_g v) = [DISJ_LB] /\
    map ec cuts = [mkc [(7%nat, 1)] 1; mkc [(0%nat, 2)] 3] /\
    (forall a, call_attempt o a -> a_cut a = mkc [(0%nat, 2)] 3 -> a_heur a = TIGHT_RAYS) /\
    g_heur (v_g v') = [TIGHT_RAYS; ALL_ONES].
Proof.
  exists exE, (repv false [VPC] [DISJ_LB] [O]), exgiven,
    (one_run [okat ALL_ONES (mkc [(0%nat, 1); (1%nat, 1)] 1); okat TIGHT_RAYS (mkc [(0%nat, 2)] 3)]).
  eexists. eexists. split; [vm_compute; reflexivity|].
  split; [split; [right; discriminate|reflexivity]|].
  split; [reflexivity|]. split; [reflexivity|]. split; [reflexivity|]. split; [reflexivity|]. split; [|reflexivity].
  intros a [j [<-|[<-|[]]]]; cbn; [discriminate|reflexivity].
Qed.
Print Assumptions bookkeeping_shifted_refuted.

(** With several disjunctions, a cut that replaces one of an earlier disjunction keeps the
    disjunction id of the replaced cut. *)
Definition setv : vpc :=
  {| v_g := with_limit exg 10; v_pmode := DISJ_SET_PBB; v_terms := 4; v_flip := -1; v_tikz := false; v_prlptime := 5;
     v_disj := false; v_set := false; v_user := []; v_exit := UNKNOWN_EXIT |}.
Definition two_runs (l1 l2 : list attempt) : callans :=
  {| ca_time0 := false; ca_nfrac := 3; ca_nfrac_default := 3; ca_optimal := true; ca_disj := D_SUCCESS;
     ca_objcut := mkc [] 0; ca_objcut_disj := 0; ca_root := []; ca_root_ok := true;
     ca_root_fails := []; ca_setsize := 2;
     ca_run := fun k => ca_run (one_run (match k with O => l1 | _ => l2 end)) k |}.
Theorem bookkeeping_disjunction_refuted :
  exists E v given o v' cuts, generateCuts E v given o = Some (v', cuts) /\ past_entry v o /\
    g_repeat (v_g v) = false /\ map ec cuts = [mkc [(0%nat, 2)] 3] /\
    g_disj (v_g v') = [O] /\
    (forall j a, In a (dr_target (ca_run o j)) -> a_cut a = mkc [(0%nat, 2)] 3 -> j <> O).
Proof.
  exists exE, setv, [], (two_runs [okat ALL_ONES (mkc [(0%nat, 1); (1%nat, 1)] 1)] [okat TIGHT_RAYS (mkc [(0%nat, 2)] 3)]).
  eexists. eexists. split; [vm_compute; reflexivity|].
  split; [split; [right; discriminate|reflexivity]|].
  split; [reflexivity|]. split; [reflexivity|]. split; [reflexivity|].
  intros [|j] a [<-|[]]; cbn; intro K; [discriminate K|discriminate].
Qed.
Print Assumptions bookkeeping_disjunction_refuted.
