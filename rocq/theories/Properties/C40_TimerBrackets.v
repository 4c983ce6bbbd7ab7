(** C40: library routines end the timers they start. *)
From Verif Require Import Prelude Model.TimeStats Model.TimerUse Spec.TimerSpec Proofs.TimerP Proofs.TimerUseP.
From Coq Require Import Lia.
Local Open Scope Z_scope.
Local Open Scope cmd_scope.

(** No timer of the object is running. *)
Definition all_off (s : tstats) : Prop := forall t, In t (ts_timers s) -> t_running t = false.

(** A generator as constructed, on which generateCuts is called any number of times, each call on
    any path through it (any mode, any outcome of any condition, any number of loop iterations, any
    clock): no timer assertion ever fails, and whenever all calls have come back no timer is left
    running (so the next call starts from the same situation). *)
Definition any_calls : cmd := Loop (Call generate_cuts).
Theorem generate_cuts_brackets : forall now o s,
  runs any_calls (initialize now) o s -> o <> AssertFails /\ (o = Norm -> all_off s) /\ o <> Ret.
Proof.
  intros now o s R.
  pose proof (wp_sound _ _ _ _ R (fun x => on x = []) (fun _ => False) {| on := []; ext := [] |}) as W.
  destruct W as (NF & N & RT); [|apply initialize_models|].
  - split; [|reflexivity]. exact (generate_cuts_wp []).
  - split; [exact NF|]. split; [|intros E; destruct (RT E) as (a & _ & [])].
    intros E. destruct (N E) as (a & M & On). intros t It.
    apply In_nth with (d := timer0) in It. destruct It as (i & Li & Et).
    destruct (t_running t) eqn:Rn; [|reflexivity]. exfalso.
    assert (Rn' : t_running (timer_at s (Z.of_nat i)) = true) by (unfold timer_at; rewrite Nat2Z.id, Et; exact Rn).
    destruct (m_own _ _ M i Li Rn') as [n F]. apply (m_on _ _ M _ _ F) in Rn'. rewrite On in Rn'. exact Rn'.
Qed.
Print Assumptions generate_cuts_brackets.

(** The routines alone, called while any set of other timers of the generator is on: no assertion
    fails, and when the routine is left (normally or by return) exactly the same timers are on. *)
Definition running (s : tstats) (n : string) : bool := t_running (timer_at s (get_id s n)).
Fixpoint starts (l : list string) : cmd := match l with [] => Skip | n :: r => start n;; starts r end.
Definition keeps_on (c : cmd) (own : list string) : Prop :=
  forall now L s o s',
  NoDup L -> (forall n, In n L -> In n base_names /\ ~ In n own) ->
  runs (starts L) (initialize now) Norm s -> runs c s o s' ->
  o <> AssertFails /\
  (o = Norm \/ o = Ret -> forall n, In n base_names -> (running s' n = true <-> In n L)).
Lemma starts_wp L : forall M e (Q R : abs -> Prop), NoDup L -> (forall n, In n L -> In n base_names /\ ~ In n M) ->
  (forall e', Q {| on := rev L ++ M; ext := e' |}) -> wp (starts L) Q R {| on := M; ext := e |}.
Proof.
  induction L as [|n L IH]; intros M e Q R ND H HQ; [apply HQ|].
  inversion ND; subst. cbn [starts]. change (wp (start n) (wp (starts L) Q R) R {| on := M; ext := e |}).
  destruct (H n (or_introl eq_refl)) as [B NM].
  apply wp_start.
  - split; [apply inb_in; exact B|]. apply String.eqb_neq. intros ->. clear - B. cbn in B. repeat (destruct B as [B|B]; [discriminate|]). destruct B.
  - apply inb_nin; exact NM.
  - apply IH; [assumption| |].
    + intros m I. destruct (H m (or_intror I)) as [Bm Mm]. split; [exact Bm|]. intros [<-|J]; contradiction.
    + intros e'. specialize (HQ e'). cbn [rev] in HQ. rewrite <- app_assoc in HQ. exact HQ.
Qed.
Lemma bal_keeps c own : bal own c -> keeps_on c own.
Proof.
  intros B now L s o s' ND H RS R.
  destruct (wp_sound _ _ _ _ RS (fun x => on x = rev L) (fun _ => False) {| on := []; ext := [] |}) as (_ & N & _).
  { apply starts_wp; [exact ND| |]. - intros n I. split; [apply H; exact I|intros []]. - intros e'. cbn [on]. apply app_nil_r. }
  { apply initialize_models. }
  destruct (N eq_refl) as ([l e] & M & E). cbn [on] in E. subst l.
  assert (W : wp c (fun x => on x = rev L) (fun x => on x = rev L) {| on := rev L; ext := e |}).
  { apply B. intros n I. apply inb_nin. intros J. apply in_rev in J. destruct (H n J). contradiction. }
  destruct (wp_sound _ _ _ _ R _ _ _ W M) as (NF & Nn & Nr). split; [exact NF|].
  intros D n Hn.
  assert (X : exists e', models {| on := rev L; ext := e' |} s').
  { destruct D as [E|E]; [destruct (Nn E) as ([l e'] & M' & E')|destruct (Nr E) as ([l e'] & M' & E')]; cbn [on] in E'; subst l; eauto. }
  destruct X as (e' & M'). apply In_nth_error in Hn. destruct Hn as [i Hi]. apply (m_base _ _ M') in Hi.
  unfold running, get_id. rewrite Hi, (m_on _ _ M' _ _ Hi). cbn [on]. symmetry. apply in_rev.
Qed.
Theorem routines_bracket :
  keeps_on gen_cut ["PRLP_SOLVE_TIME"] /\
  keeps_on prlp_setup ["PRLP_SETUP_TIME"; "DUMMY_OBJ_TIME"] /\
  keeps_on target_cuts gen_names /\
  keeps_on try_objectives obj_names /\
  keeps_on pbb_prepare ["GEN_DISJ_TIME"] /\
  keeps_on split_prepare_given ["GEN_DISJ_TIME"].
Proof.
  repeat (match goal with |- _ /\ _ => split end); apply bal_keeps.
  - exact bal_gen_cut.
  - exact bal_prlp_setup.
  - exact bal_target.
  - exact bal_try_objectives.
  - exact bal_pbb_prepare.
  - exact bal_split_given.
Qed.
Print Assumptions routines_bracket.

(** REFUTED for a split disjunction that has to find its own variable: when there is no fractional
    variable it returns with its timer running, and preparing a disjunction again on the same timer
    fails an assertion. *)
Theorem split_search_refuted : forall now,
  exists s1, runs (Call split_prepare_search) (initialize now) Norm s1 /\
    t_running (timer_at s1 (get_id s1 "GEN_DISJ_TIME")) = true /\
    (forall o s2, runs (Call split_prepare_search) s1 o s2 -> o = AssertFails) /\
    (forall o s2, runs (Call pbb_prepare) s1 o s2 -> o = AssertFails \/ o = Exited).
Proof.
  intros now.
  set (s1 := set_timer (initialize now) 3 (fun t => {| t_start := now; t_value := t_value t; t_running := true |})).
  assert (F : forall k, start_timer s1 k (ByName "GEN_DISJ_TIME") = None) by (intros k; reflexivity).
  exists s1. split; [|split; [reflexivity|split]].
  - apply (r_routine _ _ Ret). unfold split_prepare_search.
    eapply r_seq; [apply r_call with (now := now); reflexivity|]. eapply r_seq; [apply r_alt_r, r_skip|].
    apply r_seq_stop; [apply r_alt_l, r_return|discriminate].
  - intros o s2 R. inversion R as [| | | | | | | | | | | | |a s o' s3 R']; subst.
    assert (o' = AssertFails) as ->; [|reflexivity]. inversion R'; subst.
    + exfalso. match goal with H : runs (start _) _ Norm _ |- _ => inversion H; subst end. match goal with H : tstep _ _ = Some _ |- _ => cbn [tstep] in H; rewrite F in H; discriminate end.
    + match goal with H : runs (start _) _ _ _ |- _ => inversion H; subst end; [congruence|reflexivity].
  - intros o s2 R. inversion R as [| | | | | | | | | | | | |a s o' s3 R']; subst.
    assert (o' = AssertFails \/ o' = Exited) as [->| ->]; [|left; reflexivity|right; reflexivity].
    inversion R'; subst.
    + match goal with H : runs (Maybe Exit) _ Norm _ |- _ => inversion H; subst end;
      match goal with H : runs Exit _ Norm _ |- _ => inversion H | H : runs Skip _ Norm _ |- _ => inversion H; subst end.
      match goal with H : runs (Seq (start _) _) _ _ _ |- _ => inversion H; subst end.
      * exfalso. match goal with H : runs (start _) _ Norm _ |- _ => inversion H; subst end. match goal with H : tstep _ _ = Some _ |- _ => cbn [tstep] in H; rewrite F in H; discriminate end.
      * match goal with H : runs (start _) _ _ _ |- _ => inversion H; subst end; [congruence|left; reflexivity].
    + match goal with H : runs (Maybe Exit) _ _ _ |- _ => inversion H; subst end;
      match goal with H : runs Exit _ _ _ |- _ => inversion H; subst; right; reflexivity | H : runs Skip _ _ _ |- _ => inversion H; subst; congruence end.
Qed.
Print Assumptions split_search_refuted.

(** REFUTED: the time limit on collecting points and rays.  The timer it is measured with is never
    registered, so in every state a generator can be in between calls - and at every clock reading -
    the limit is reported as not reached. *)
Theorem collection_limit_refuted : forall now s now' limit,
  runs any_calls (initialize now) Norm s -> (0 <= limit)%Q ->
  reachedTimeLimit s now' (time_T1 "TOTAL") limit = false.
Proof.
  intros now s now' limit R L.
  destruct (wp_sound _ _ _ _ R (fun x => on x = []) (fun _ => False) {| on := []; ext := [] |}) as (_ & N & _).
  - split; [|reflexivity]. exact (generate_cuts_wp []).
  - apply initialize_models.
  - destruct (N eq_refl) as (a & M & _). unfold reachedTimeLimit, get_total_time. cbn [resolve]. unfold get_id.
    change (time_T1 "TOTAL") with ignored. rewrite (m_ign _ _ M). apply Qltb_ge. apply Qle_trans with 0%Q; [discriminate|exact L].
Qed.
Print Assumptions collection_limit_refuted.

(** A concrete execution: one call that finds a disjunction, sets up one term, sets up the PRLP and
    tries one user objective, then stops. *)
Example one_call_runs : exists s, runs any_calls (initialize 0) Norm s /\ all_off s /\
  get_value s (ByName "TOTAL_TIME") = 40 /\ get_value s (ByName "PRLP_SETUP_TIME") = 3.
Proof.
  eexists. split.
  - eapply r_loop_more; [|apply r_loop_end]. apply (r_routine _ _ Ret).
    unfold generate_cuts. eapply r_seq; [apply r_call with (now := 2%nat); vm_compute; reflexivity|].
    repeat (eapply r_seq; [apply r_alt_r, r_skip|]).
    eapply r_seq.
    { eapply r_loop_more; [|apply r_loop_end]. apply r_alt_l.
      eapply r_seq.
      - apply (r_routine _ _ Ret). unfold setup_constraints.
        eapply r_seq; [|apply r_return]. eapply r_loop_more; [|apply r_loop_end]. apply r_alt_l. apply (r_any _ 0%nat).
        eapply r_seq; [apply r_call with (now := 3%nat); vm_compute; reflexivity|].
        eapply r_seq; [apply r_call with (now := 3%nat); vm_compute; reflexivity|].
        apply r_alt_l. eapply r_seq; [apply r_call with (now := 3%nat); vm_compute; reflexivity|].
        eapply r_seq; [apply r_call with (now := 3%nat); vm_compute; reflexivity|].
        eapply r_seq; [apply r_alt_r, r_skip|]. eapply r_seq; [apply r_call with (now := 9%nat); vm_compute; reflexivity|].
        apply r_call with (now := 9%nat); vm_compute; reflexivity.
      - apply r_alt_l. apply (r_routine _ _ Ret). unfold try_objectives.
        do 3 (eapply r_seq; [apply r_alt_r, r_skip|]).
        eapply r_seq; [apply r_alt_l; eapply r_seq|].
        + apply (r_routine _ _ Ret). unfold prlp_setup.
          eapply r_seq; [apply r_call with (now := 10%nat); vm_compute; reflexivity|].
          eapply r_seq; [apply r_alt_r, r_skip|]. eapply r_seq; [apply r_call with (now := 13%nat); vm_compute; reflexivity|].
          apply r_seq_stop; [apply r_alt_l, r_return|discriminate].
        + eapply r_seq; [apply r_loop_end|]. apply r_alt_r, r_skip.
        + do 2 (eapply r_seq; [apply r_alt_r, r_skip|]). apply r_return. }
    eapply r_seq; [apply r_call with (now := 42%nat); vm_compute; reflexivity|]. apply r_return.
  - split; [|split; vm_compute; reflexivity].
    intros t I. vm_compute in I. repeat (destruct I as [<-|I]; [reflexivity|]). destruct I.
Qed.
