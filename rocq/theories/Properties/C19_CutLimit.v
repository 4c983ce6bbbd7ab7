(** C19: the number of cuts respects CUTLIMIT. *)
From Verif Require Import Prelude Model.Generator Model.Generate Spec.GenSpec Proofs.GeneratorP Proofs.GenExamples.

(** The limit in force: none allowed for 0, the value itself if positive, the given multiple of the
    number of fractional variables if negative. *)
Theorem cut_limit_value L nfrac :
  (L = 0 -> getCutLimit L nfrac = 0)%Z /\ ((0 < L)%Z -> getCutLimit L nfrac = L) /\
  ((L < 0)%Z -> getCutLimit L nfrac = ((- L) * Z.of_nat nfrac)%Z).
Proof.
  unfold getCutLimit. split; [|split]; intro H.
  - subst. reflexivity.
  - rewrite (proj2 (Z.eqb_neq L 0)), (proj2 (Z.ltb_lt 0 L)) by lia. reflexivity.
  - rewrite (proj2 (Z.eqb_neq L 0)), (proj2 (Z.ltb_ge 0 L)) by lia.
    destruct (Nat.eqb_spec nfrac 0) as [->|]; lia.
Qed.
Print Assumptions cut_limit_value.

Lemma genCut_add_limit E g a g' n : genCut E g a = Some (g', n) ->
  (g_num_cuts g' = g_num_cuts g /\ g_disj g' = g_disj g) \/
  (reachedCutLimit g = false /\ g_num_cuts g' = S (g_num_cuts g) /\ g_disj g' = g_disj g ++ [g_curr g]).
Proof.
  intros H. apply genCut_effect in H. destruct H as [g1 m Hh -> Hn Hb].
  destruct Hh as [| |i oc g1 ? ? ? ? ? ? ? Hr]; [left; auto|right; auto|].
  left. apply replaceCut_spec in Hr. destruct Hr as (_ & A & _ & _ & _ & B & _). cbn. auto.
Qed.

(** Mode with one partial branch-and-bound tree: never more than the limit. *)
Theorem cut_limit_respected E v given o v' cuts :
  generateCuts E v given o = Some (v', cuts) -> past_entry v o -> v_pmode v = PARTIAL_BB -> v_tikz v = false ->
  (Z.of_nat (g_num_cuts (v_g v')) <= Z.max 0 (getCutLimit (g_limit (v_g v)) (ca_nfrac o)))%Z.
Proof.
  intros H He Hm Ht. set (L := getCutLimit (g_limit (v_g v)) (ca_nfrac o)).
  destruct (generateCuts_ind (fun g => (g_mode g = PARTIAL_BB /\ g_limit g = L) /\ (Z.of_nat (g_num_cuts g) <= Z.max 0 L)%Z)
    E v given o v' cuts H He) as [[_ K] _]; [..|exact K].
  - intros g F. destruct (fresh_counters _ _ _ _ F) as (K1 & _ & _ & _ & _ & K2 & K3 & _).
    rewrite K1, K2, K3. split; [auto|lia].
  - intros fs g K. exact K.
  - intros j g K. exact K.
  - intros c g _ [[K1 K2] K3] _ Hl. split; [auto|]. unfold reachedCutLimit in Hl. rewrite K1 in Hl.
    apply Z.leb_gt in Hl. cbn [insertCut g_num_cuts]. lia.
  - intros g id _ F Hl. destruct (fresh_counters _ _ _ _ F) as (K1 & _ & _ & _ & _ & K2 & K3 & _).
    destruct Hl as [Hl|Hl]; [|congruence]. unfold reachedCutLimit in Hl. rewrite K2, Hm in Hl.
    apply Z.leb_gt in Hl. cbn [insertCut with_curr g_num_cuts g_mode g_limit]. rewrite K1, K2, K3. split; [auto|]. lia.
  - intros a g g' n _ [[K1 K2] K3] Hg. pose proof (genCut_frame _ _ _ _ _ Hg) as (_ & _ & _ & F1 & F2).
    split; [split; congruence|]. apply genCut_add_limit in Hg. destruct Hg as [[A _]|(A & B & _)]; [lia|].
    unfold reachedCutLimit in A. rewrite K1 in A. apply Z.leb_gt in A. lia.
Qed.
Print Assumptions cut_limit_respected.

(** Modes with several disjunctions: never more than the limit *per disjunction*. *)
Theorem cut_limit_per_disjunction E v given o v' cuts :
  generateCuts E v given o = Some (v', cuts) -> past_entry v o ->
  v_pmode v = DISJ_SET_PBB \/ v_pmode v = SPLITS -> v_tikz v = false ->
  g_repeat (v_g v) = false \/ given = [] ->
  forall d, (Z.of_nat (length (filter (Nat.eqb d) (g_disj (v_g v'))))
     <= Z.max 0 (getCutLimit (g_limit (v_g v)) (ca_nfrac o)))%Z.
Proof.
  intros H He Hm Ht Hrep. set (L := getCutLimit (g_limit (v_g v)) (ca_nfrac o)).
  set (ok := fun g => (forall d, (Z.of_nat (length (filter (Nat.eqb d) (g_disj g))) <= Z.max 0 L)%Z)).
  assert (Add : forall g, (g_mode g = DISJ_SET_PBB \/ g_mode g = SPLITS) -> g_limit g = L -> ginv g ->
    reachedCutLimit g = false -> ok g -> forall d, (Z.of_nat (length (filter (Nat.eqb d) (g_disj g ++ [g_curr g]))) <= Z.max 0 L)%Z).
  { intros g Hmo Hli I Hr K d. rewrite filter_app, app_length. cbn [filter].
    destruct (Nat.eqb_spec d (g_curr g)) as [->|]; cbn [length].
    - assert (C : (Z.of_nat (countDisj g (g_curr g)) < L)%Z).
      { unfold reachedCutLimit in Hr. rewrite Hli in Hr. destruct Hmo as [Hmo|Hmo]; rewrite Hmo in Hr; apply Z.leb_gt in Hr; exact Hr. }
      unfold countDisj in C. destruct I as [(_ & _ & I & _) _]. rewrite <- I, firstn_all in C. lia.
    - specialize (K d). lia. }
  destruct (generateCuts_ind (fun g => ((g_mode g = DISJ_SET_PBB \/ g_mode g = SPLITS) /\ g_limit g = L /\ ginv g) /\ ok g)
    E v given o v' cuts H He) as [[_ K] _]; [..|exact K].
  - intros g F. pose proof (fresh_ginv _ _ _ _ Hrep F) as I. destruct (fresh_counters _ _ _ _ F) as (K1 & _ & _ & _ & _ & K2 & K3 & _).
    split; [rewrite K2, K3; auto|]. intro d. destruct I as [(_ & _ & I & _) _]. rewrite K1 in I.
    destruct (g_disj g); [cbn; lia|discriminate].
  - intros fs g K. exact K.
  - intros j g K. exact K.
  - intros c g _ [(K1 & K2 & K3) K4] Hc Hl. split; [split; [exact K1|split; [exact K2|apply insertCut_ginv; exact K3]]|].
    intro d. cbn [insertCut g_disj]. rewrite <- Hc. apply Add; assumption.
  - intros g id _ F Hl. pose proof (fresh_ginv _ _ _ _ Hrep F) as I.
    destruct (fresh_counters _ _ _ _ F) as (K1 & _ & _ & _ & _ & K2 & K3 & _).
    split; [split; [cbn; rewrite K2; exact Hm|split; [exact K3|apply insertCut_ginv; exact I]]|].
    destruct Hl as [Hl|Hl]; [|congruence]. intro d. cbn [insertCut with_curr g_disj].
    destruct I as [(_ & _ & I & _) _]. rewrite K1 in I. destruct (g_disj g) eqn:Eg; [|discriminate].
    assert (L0 : (0 < L)%Z).
    { unfold reachedCutLimit, countDisj in Hl. rewrite K1, K2, K3 in Hl. fold L in Hl. cbn in Hl.
      destruct Hm as [Hm|Hm]; rewrite Hm in Hl; apply Z.leb_gt in Hl; exact Hl. }
    cbn. destruct (Nat.eqb d id); cbn; lia.
  - intros a g g' n _ [(K1 & K2 & K3) K4] Hg. pose proof (genCut_frame _ _ _ _ _ Hg) as (_ & _ & _ & F1 & F2).
    split; [split; [rewrite F1; exact K1|split; [congruence|eapply genCut_ginv; eassumption]]|].
    apply genCut_add_limit in Hg. destruct Hg as [[_ A]|(A & _ & B)]; intro d; [rewrite A; apply K4|].
    rewrite B. apply Add; assumption.
Qed.
Print Assumptions cut_limit_per_disjunction.

(** Hence the total is at most the limit times the number of disjunctions: every disjunction id
    in use is smaller than the number of disjunctions. *)
Lemma filter_count_sum (l : list nat) n : (forall d, In d l -> (d < n)%nat) ->
  Z.of_nat (length l) = Zsum (map (fun d => Z.of_nat (length (filter (Nat.eqb d) l))) (seq 0 n)).
Proof.
  intro H. induction l as [|x l IH].
  - cbn. clear H. assert (forall m s, Zsum (map (fun _ => 0%Z) (seq s m)) = 0%Z) as Z0.
    { induction m; intro s; cbn; [reflexivity|apply IHm]. } symmetry. apply Z0.
  - assert (S : forall m s, (s <= x < s + m)%nat -> Zsum (map (fun d => Z.of_nat (length (filter (Nat.eqb d) (x :: l)))) (seq s m))
      = (1 + Zsum (map (fun d => Z.of_nat (length (filter (Nat.eqb d) l))) (seq s m)))%Z).
    { assert (S0 : forall m s, (x < s)%nat -> map (fun d => Z.of_nat (length (filter (Nat.eqb d) (x :: l)))) (seq s m)
        = map (fun d => Z.of_nat (length (filter (Nat.eqb d) l))) (seq s m)).
      { intros m s Hs. apply map_ext_in. intros d Hd. apply in_seq in Hd. cbn [filter].
        destruct (Nat.eqb_spec d x); [lia|reflexivity]. }
      induction m; intros s Hs; [lia|]. cbn [seq map Zsum]. destruct (Nat.eq_dec s x) as [->|Hne].
      - rewrite S0 by lia. cbn [filter]. rewrite Nat.eqb_refl. cbn [length]. lia.
      - rewrite IHm by lia. cbn [filter]. destruct (Nat.eqb_spec s x); [lia|]. lia. }
    rewrite S by (specialize (H x (or_introl eq_refl)); lia). rewrite <- IH by (intros d Hd; apply H; right; exact Hd).
    cbn [length]. lia.
Qed.
Theorem cut_limit_total_set E v given o v' cuts n :
  generateCuts E v given o = Some (v', cuts) -> past_entry v o ->
  v_pmode v = DISJ_SET_PBB \/ v_pmode v = SPLITS -> v_tikz v = false ->
  g_repeat (v_g v) = false \/ given = [] ->
  (forall d, In d (g_disj (v_g v')) -> (d < n)%nat) ->
  (Z.of_nat (g_num_cuts (v_g v')) <= Z.of_nat n * Z.max 0 (getCutLimit (g_limit (v_g v)) (ca_nfrac o)))%Z.
Proof.
  intros H He Hm Ht Hr Hd.
  pose proof (cut_limit_per_disjunction _ _ _ _ _ _ H He Hm Ht Hr) as K.
  assert (I : ginv (v_g v')).
  { refine (proj1 (generateCuts_ind ginv E v given o v' cuts H He _ _ _ _ _ _)).
    - intros g F. exact (fresh_ginv _ _ _ _ Hr F).
    - intros fs g I. exact I.
    - intros j g I. exact I.
    - intros c g _ I _ _. apply insertCut_ginv. exact I.
    - intros g id _ F _. apply insertCut_ginv. exact (fresh_ginv _ _ _ _ Hr F).
    - intros a g g' m _ I. apply genCut_ginv. exact I. }
  destruct I as [(_ & _ & I & _) _]. rewrite <- I, (filter_count_sum _ n Hd).
  assert (B : forall m s, (Zsum (map (fun d => Z.of_nat (length (filter (Nat.eqb d) (g_disj (v_g v'))))) (seq s m))
    <= Z.of_nat m * Z.max 0 (getCutLimit (g_limit (v_g v)) (ca_nfrac o)))%Z).
  { induction m; intro s; [cbn; lia|]. cbn [seq map Zsum]. specialize (IHm (S s)). specialize (K s). nia. }
  apply B.
Qed.
Print Assumptions cut_limit_total_set.

Example cut_limit_witness :
  v_pmode exv = PARTIAL_BB /\ v_tikz exv = false /\ getCutLimit (g_limit (v_g exv)) (ca_nfrac exo) = 6%Z /\
  getCutLimit (-1) 1 = 1%Z.
Proof. repeat split. Qed.
Definition lim_v (l : Z) (m : vpcmode) : vpc :=
  {| v_g := with_limit exg l; v_pmode := m; v_terms := 4; v_flip := -1; v_tikz := false; v_prlptime := 5;
     v_disj := false; v_set := false; v_user := []; v_exit := UNKNOWN_EXIT |}.
Definition lim_o : callans :=
  {| ca_time0 := false; ca_nfrac := 3; ca_nfrac_default := 3; ca_optimal := true; ca_disj := D_SUCCESS;
     ca_objcut := mkc [] 0; ca_objcut_disj := 0; ca_root := []; ca_root_ok := true;
     ca_root_fails := []; ca_setsize := 2;
     ca_run := fun k => {| dr_time0 := false; dr_setup_fails := []; dr_time1 := false; dr_best := 3; dr_worst := 5;
       dr_lpopt := 1; dr_prlp := SUCCESS_EXIT; dr_prlp_fails := []; dr_user := dr_user exrun;
       dr_target := [okat ALL_ONES (mkc [(k, 1)] 1); okat DISJ_LB (mkc [((k + 10)%nat, 1)] 1)];
       dr_time2 := false; dr_solvetime2 := 0 |} |}.
(** Limit 1: one cut with a single tree, one per disjunction with a set. *)
Example cut_limit_hit :
  (exists v', generateCuts exE (lim_v 1 PARTIAL_BB) [] lim_o = Some (v', g_cuts (v_g v')) /\
     g_num_cuts (v_g v') = 1%nat /\ v_exit v' = CUT_LIMIT_EXIT) /\
  (exists v', generateCuts exE (lim_v 1 SPLITS) [] lim_o = Some (v', g_cuts (v_g v')) /\
     g_num_cuts (v_g v') = 2%nat /\ g_disj (v_g v') = [0%nat; 1%nat]).
Proof.
  split.
  - exists (match generateCuts exE (lim_v 1 PARTIAL_BB) [] lim_o with Some (v, _) => v | None => exv end).
    vm_compute. repeat split.
  - exists (match generateCuts exE (lim_v 1 SPLITS) [] lim_o with Some (v, _) => v | None => exv end).
    vm_compute. repeat split.
Qed.

(** REFUTED for repeated use: the count per disjunction looks at the first [num_cuts] labels, which
    then belong to cuts of an earlier call, so more cuts than the limit are produced. *)
Theorem cut_limit_repeated_refuted :
  exists E v given o v' cuts, generateCuts E v given o = Some (v', cuts) /\ past_entry v o /\
    v_pmode v = SPLITS /\ v_tikz v = false /\ g_limit (v_g v) = 1%Z /\ ca_setsize o = 1%nat /\
    length cuts = (length given + 2)%nat /\ (forall d, In d (skipn (length given) (g_disj (v_g v'))) -> d = O).
Proof.
  exists exE,
   {| v_g := {| g_cuts := []; g_type := [VPC; VPC]; g_heur := [DISJ_LB; DISJ_LB]; g_disj := [1%nat; 1%nat];
      g_ntype := fun _ => 0%Z; g_nheur := fun _ => 0%Z; g_nobj := fun _ => 0%Z; g_nfailheur := fun _ => 0%Z;
      g_nfails := fun _ => 0%Z; g_num_cuts := 0; g_num_obj := 0; g_num_fail := 0; g_init := 0;
      g_canrep := true; g_repeat := true; g_mode := SPLITS; g_curr := 0; g_limit := 1 |};
      v_pmode := SPLITS; v_terms := 4; v_flip := -1; v_tikz := false; v_prlptime := 5;
      v_disj := false; v_set := false; v_user := []; v_exit := UNKNOWN_EXIT |},
   [{| ec := mkc [(21%nat, 1)] 1; eff := 1 |}; {| ec := mkc [(22%nat, 1)] 1; eff := 1 |}],
   {| ca_time0 := false; ca_nfrac := 3; ca_nfrac_default := 3; ca_optimal := true; ca_disj := D_SUCCESS;
     ca_objcut := mkc [] 0; ca_objcut_disj := 0; ca_root := []; ca_root_ok := true;
     ca_root_fails := []; ca_setsize := 1; ca_run := ca_run lim_o |}.
  eexists. eexists. split; [vm_compute; reflexivity|].
  split; [split; [right; discriminate|reflexivity]|].
  split; [reflexivity|]. split; [reflexivity|]. split; [reflexivity|]. split; [reflexivity|]. split; [reflexivity|].
  cbn. intros d [<-|[<-|[]]]; reflexivity.
Qed.
Print Assumptions cut_limit_repeated_refuted.
