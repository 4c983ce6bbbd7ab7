(** C39: a timer reports exactly the time during which it was on. *)
From Verif Require Import Prelude Model.TimeStats Spec.TimerSpec Proofs.TimerP.
From Coq Require Import Lia.
Local Open Scope Z_scope.

Local Lemma valid_of n id v t0 h2 s : tinv n id v t0 h2 s -> valid_id s (Z.of_nat id) = true.
Proof. intros I. apply valid_id_iff. pose proof (ti_id _ _ _ _ _ _ I). lia. Qed.
Local Lemma resolve_of n id v t0 h2 s k : tinv n id v t0 h2 s -> addresses n id k = true -> resolve s k = Z.of_nat id.
Proof. intros I A. rewrite <- (resolve_addr _ _ _ _ _ _ k I) in A. apply Z.eqb_eq; exact A. Qed.

(** For every program of timer calls that trips no assertion, with a clock that never goes back:
    the total reported for a timer at any later moment (running or not) is its initial value, plus
    what was explicitly added, plus the number of clock ticks since its registration during which
    the last start/end call addressed to it (by name or id) was a start. *)
Theorem total_time : forall h1 t0 n v h2 s now k,
  trun ts_new (h1 ++ (t0, Register n v) :: h2) = Some s ->
  clock_from t0 h2 -> (last_reading t0 h2 <= now)%nat ->
  (forall e, In e h2 -> ~ registers n e) ->
  addresses n (registrations h1) k = true ->
  get_total_time s now k =
    seconds (v + added n (registrations h1) h2 + Z.of_nat (ticks_on n (registrations h1) h2 t0 now)).
Proof.
  intros h1 t0 n v h2 s now k H C L NR A. pose proof (timer_state h1 t0 n v h2 s C NR H) as I.
  unfold get_total_time. rewrite (resolve_of _ _ _ _ _ _ _ I A), (valid_of _ _ _ _ _ _ I), (ti_run _ _ _ _ _ _ I).
  rewrite <- (ti_val _ _ _ _ _ _ I now L). destruct (is_on _ _ h2); f_equal; lia.
Qed.
Print Assumptions total_time.

(** While it is off, the value and the accumulated time are that same number. *)
Theorem value_when_off : forall h1 t0 n v h2 s now k,
  trun ts_new (h1 ++ (t0, Register n v) :: h2) = Some s ->
  clock_from t0 h2 -> (last_reading t0 h2 <= now)%nat ->
  (forall e, In e h2 -> ~ registers n e) ->
  addresses n (registrations h1) k = true -> is_on n (registrations h1) h2 = false ->
  let ticks := v + added n (registrations h1) h2 + Z.of_nat (ticks_on n (registrations h1) h2 t0 now) in
  get_value s k = ticks /\ get_time s k = seconds ticks.
Proof.
  intros h1 t0 n v h2 s now k H C L NR A O ticks. pose proof (timer_state h1 t0 n v h2 s C NR H) as I.
  unfold get_value, get_time. rewrite (resolve_of _ _ _ _ _ _ _ I A), (valid_of _ _ _ _ _ _ I).
  pose proof (ti_val _ _ _ _ _ _ I now L) as V. rewrite O, Z.add_0_r in V. rewrite V. auto.
Qed.
Print Assumptions value_when_off.

(** The time limit of a registered timer is reported reached exactly when that total is larger. *)
Theorem limit_reached : forall h1 t0 n v h2 s now limit,
  trun ts_new (h1 ++ (t0, Register n v) :: h2) = Some s ->
  clock_from t0 h2 -> (last_reading t0 h2 <= now)%nat ->
  (forall e, In e h2 -> ~ registers n e) ->
  (reachedTimeLimit s now n limit = true <->
   (limit < seconds (v + added n (registrations h1) h2 + Z.of_nat (ticks_on n (registrations h1) h2 t0 now)))%Q).
Proof.
  intros. unfold reachedTimeLimit. rewrite (total_time h1 t0 n v h2) by (auto; cbn; apply String.eqb_refl).
  apply Qltb_lt.
Qed.
Print Assumptions limit_reached.

(** Calls addressed to another timer change nothing for this one: its numbers depend only on the
    calls addressed to it (and on end_all). *)
Theorem independent : forall h1 t0 n v h2 e s s' now k,
  trun ts_new (h1 ++ (t0, Register n v) :: h2) = Some s ->
  clock_from t0 h2 -> (forall e, In e h2 -> ~ registers n e) ->
  tstep s e = Some s' ->
  (match snd e with
   | Start k' | End k' | AddValue k' _ | AddTime k' _ => addresses n (registrations h1) k' = false
   | Register m _ => m <> n
   | EndAll => False
   end) ->
  addresses n (registrations h1) k = true ->
  get_value s' k = get_value s k /\ get_time s' k = get_time s k /\
  get_total_time s' now k = get_total_time s now k /\ get_current_time s' now k = get_current_time s now k.
Proof.
  intros h1 t0 n v h2 e s s' now k H C NR ST O A. pose proof (timer_state h1 t0 n v h2 s C NR H) as I.
  destruct (tstep_shape _ _ _ ST) as [L F]. destruct (tstep_effect _ _ _ _ _ _ _ _ I ST) as [E _].
  assert (E' : timer_at s' (Z.of_nat (registrations h1)) = timer_at s (Z.of_nat (registrations h1))).
  { rewrite E. unfold effect. destruct (snd e); try rewrite O; auto. contradiction. }
  assert (R' : resolve s' k = Z.of_nat (registrations h1)).
  { rewrite <- (resolve_of _ _ _ _ _ _ _ I A). destruct k as [m|i]; [|reflexivity]. cbn [resolve]. unfold get_id. rewrite F.
    cbn [addresses] in A. apply String.eqb_eq in A. subst m.
    destruct (snd e); auto. destruct (String.eqb_spec n name); [congruence|reflexivity]. }
  assert (V' : valid_id s' (Z.of_nat (registrations h1)) = true).
  { apply valid_id_iff. pose proof (ti_id _ _ _ _ _ _ I). lia. }
  unfold get_value, get_time, get_total_time, get_current_time.
  rewrite R', (resolve_of _ _ _ _ _ _ _ I A), V', (valid_of _ _ _ _ _ _ I), E'. auto.
Qed.
Print Assumptions independent.

(** A name that was never registered: every query answers -1, every start/end/add is ignored, and
    no limit from -1 up is ever reported reached. *)
Theorem unknown_timer : forall h s now n limit v,
  trun ts_new h = Some s -> ~ In n (names_of h) ->
  get_value s (ByName n) = -1 /\ get_time s (ByName n) = inject_Z (-1) /\
  get_total_time s now (ByName n) = inject_Z (-1) /\ get_current_time s now (ByName n) = inject_Z (-1) /\
  get_id s n = -1 /\
  tstep s (now, Start (ByName n)) = Some s /\ tstep s (now, End (ByName n)) = Some s /\
  tstep s (now, AddValue (ByName n) v) = Some s /\ tstep s (now, AddTime (ByName n) v) = Some s /\
  ((-1 <= limit)%Q -> reachedTimeLimit s now n limit = false).
Proof.
  intros h s now n limit v H NI.
  assert (F : map_find (ts_names s) n = None).
  { revert s H NI. induction h as [|e h IH] using rev_ind; intros s H NI; [inversion H; reflexivity|].
    rewrite trun_app in H. destruct (trun ts_new h) as [s0|]; [|discriminate]. cbn [trun] in H.
    destruct (tstep s0 e) as [s1|] eqn:E; [|discriminate]. inversion H; subst s1.
    assert (NA : forall a b, names_of (a ++ b) = names_of a ++ names_of b).
    { clear. induction a as [|[t c] r IH]; intros b; [reflexivity|]. cbn [names_of app]. destruct c; rewrite ?IH; reflexivity. }
    rewrite NA in NI. destruct (tstep_shape _ _ _ E) as [_ F]. rewrite F.
    assert (map_find (ts_names s0) n = None) by (apply IH; auto; intros X; apply NI, in_or_app; auto).
    destruct e as [t c]; cbn [snd]. destruct c; auto. destruct (String.eqb_spec n name); auto.
    subst. exfalso. apply NI, in_or_app. right. left. reflexivity. }
  assert (G : get_id s n = -1) by (unfold get_id; rewrite F; reflexivity).
  assert (V : valid_id s (-1) = false) by reflexivity.
  unfold get_value, get_time, get_total_time, get_current_time, reachedTimeLimit, tstep, start_timer, end_timer, add_value, add_time, add_time_id, add_value_id, start_id, end_id, get_total_time.
  cbn [resolve]. rewrite G, V. repeat (split; [reflexivity|]).
  intros L. apply Qltb_ge. exact L.
Qed.
Print Assumptions unknown_timer.

(** With every name registered once, a program trips an assertion exactly when some call breaks the
    rules: it starts a timer that is on or ends one that is off. *)
Local Lemma names_app a b : names_of (a ++ b) = names_of a ++ names_of b.
Proof. induction a as [|[t c] r IH]; [reflexivity|]. cbn [names_of app]. destruct c; rewrite ?IH; reflexivity. Qed.
Local Lemma registers_in n e h : In e h -> registers n e -> In n (names_of h).
Proof.
  intros I [v E]. destruct e as [t c]; cbn [snd] in E; subst c. apply in_split in I. destruct I as (a & b & ->).
  rewrite names_app. apply in_or_app. right. left. reflexivity.
Qed.
Local Lemma split_registration h i : (i < registrations h)%nat ->
  exists h1 t0 n v h2, h = h1 ++ (t0, Register n v) :: h2 /\ registrations h1 = i.
Proof.
  induction h as [|e h IH] using rev_ind; intros L; [cbn in L; lia|].
  rewrite registrations_app in L. destruct (Nat.ltb_spec i (registrations h)) as [B|B].
  - destruct (IH B) as (h1 & t0 & n & v & h2 & -> & R). exists h1, t0, n, v, (h2 ++ [e]). rewrite <- app_assoc. auto.
  - destruct e as [t c]. change (registrations [(t, c)]) with (Datatypes.length (if is_register (t, c) then [(t, c)] else [])) in L.
    destruct c; cbn [is_register snd Datatypes.length] in L; try lia.
    exists h, t, name, initial, []. split; [reflexivity|lia].
Qed.
Local Lemma nodup_tail h1 t0 n v h2 : NoDup (names_of (h1 ++ (t0, Register n v) :: h2)) -> forall e, In e h2 -> ~ registers n e.
Proof.
  rewrite names_app. cbn [names_of]. intros ND e I R. apply NoDup_remove_2 in ND. apply ND, in_or_app. right. eapply registers_in; eauto.
Qed.

Local Lemma step_fails h s e : trun ts_new h = Some s -> clock_from 0 h -> NoDup (names_of h) ->
  (tstep s e = None <-> breaks_rules h e).
Proof.
  intros H C ND. split.
  - intros E. destruct e as [now c].
    assert (X : forall i, valid_id s i = true -> exists h1 t0 n v h2, h = h1 ++ (t0, Register n v) :: h2 /\ Z.of_nat (registrations h1) = i /\ tinv n (registrations h1) v t0 h2 s).
    { intros i V. apply valid_id_iff in V. destruct (trun_shape _ _ H) as [L _].
      destruct (split_registration h (Z.to_nat i)) as (h1 & t0 & n & v & h2 & -> & R); [lia|].
      exists h1, t0, n, v, h2. split; [reflexivity|]. split; [lia|].
      apply clock_from_app in C. destruct C as [_ [_ C]].
      apply timer_state; [exact C|eapply nodup_tail; exact ND|exact H]. }
    destruct c; try discriminate; cbn [tstep] in E.
    + unfold start_timer, start_id in E. destruct (valid_id s (resolve s k)) eqn:V; [|discriminate].
      destruct (X _ V) as (h1 & t0 & n & v & h2 & HH & R & I).
      destruct (t_running (timer_at s (resolve s k))) eqn:T; [|discriminate].
      exists h1, t0, n, v, h2, k. split; [exact HH|]. split.
      * rewrite <- (resolve_addr _ _ _ _ _ _ k I). apply Z.eqb_eq. lia.
      * left. split; [reflexivity|]. rewrite <- (ti_run _ _ _ _ _ _ I), R. exact T.
    + unfold end_timer, end_id in E. destruct (valid_id s (resolve s k)) eqn:V; [|discriminate].
      destruct (X _ V) as (h1 & t0 & n & v & h2 & HH & R & I).
      destruct (t_running (timer_at s (resolve s k))) eqn:T; [discriminate|].
      exists h1, t0, n, v, h2, k. split; [exact HH|]. split.
      * rewrite <- (resolve_addr _ _ _ _ _ _ k I). apply Z.eqb_eq. lia.
      * right. split; [reflexivity|]. rewrite <- (ti_run _ _ _ _ _ _ I), R. exact T.
  - intros (h1 & t0 & n & v & h2 & k & HH & A & D). subst h.
    apply clock_from_app in C. destruct C as [_ [_ C]].
    pose proof (timer_state h1 t0 n v h2 s C (nodup_tail _ _ _ _ _ ND) H) as I.
    destruct (tstep s e) as [s'|] eqn:E; [|reflexivity]. exfalso.
    destruct (tstep_effect _ _ _ _ _ _ _ _ I E) as [_ M]. unfold misuse in M.
    destruct D as [[D1 D2]|[D1 D2]]; rewrite D1, D2, A in M; discriminate.
Qed.

Theorem assertion_iff : forall h, clock_from 0 h -> NoDup (names_of h) ->
  (trun ts_new h = None <-> exists h1 e h2, h = h1 ++ e :: h2 /\ breaks_rules h1 e).
Proof.
  intros h. induction h as [|e h IH] using rev_ind; intros C ND.
  - split; [discriminate|]. intros (h1 & e & h2 & E & _). destruct h1; discriminate.
  - rewrite trun_app. apply clock_from_app in C. destruct C as [C _].
    rewrite names_app in ND. assert (ND' : NoDup (names_of h)).
    { clear - ND. induction (names_of h) as [|x l IH]; [constructor|]. cbn [app] in ND. inversion ND; subst. constructor; [|auto]. intros I; apply H1, in_or_app; auto. }
    specialize (IH C ND'). destruct (trun ts_new h) as [s|] eqn:E.
    + cbn [trun]. pose proof (step_fails h s e E C ND') as SF. split.
      * intros F. exists h, e, []. split; [reflexivity|]. apply SF. destruct (tstep s e); [discriminate|reflexivity].
      * intros (h1 & e1 & h2 & HH & B). destruct h2 as [|y h2 _] using rev_ind.
        -- apply app_inj_tail in HH. destruct HH as [<- <-]. apply SF in B. rewrite B. reflexivity.
        -- change (h1 ++ e1 :: h2 ++ [y]) with (h1 ++ (e1 :: h2) ++ [y]) in HH. rewrite app_assoc in HH. apply app_inj_tail in HH. destruct HH as [HH _].
           assert (X : Some s = None) by (apply IH; exists h1, e1, h2; auto). discriminate.
    + split; [intros _|reflexivity]. destruct (proj1 IH eq_refl) as (h1 & e1 & h2 & -> & B).
      exists h1, e1, (h2 ++ [e]). rewrite <- app_assoc. auto.
Qed.
Print Assumptions assertion_iff.

(** Printing the times writes every timer's accumulated time once, in registration order. *)
Theorem print_times : forall h s fuel,
  trun ts_new h = Some s -> NoDup (names_of h) ->
  print s fuel 2 = Some (map (fun i => (None, Some (get_time s (ById (Z.of_nat i))))) (seq 0 (registrations h))).
Proof.
  intros h s fuel H ND.
  assert (L : Datatypes.length (ts_names s) = registrations h /\ forall m, In m (names_of h) <-> map_find (ts_names s) m <> None).
  { revert s H ND. induction h as [|e h IH] using rev_ind; intros s H ND; [inversion H; split; [reflexivity|]; intros m; cbn; split; [tauto|congruence]|].
    rewrite trun_app in H. destruct (trun ts_new h) as [s0|]; [|discriminate]. cbn [trun] in H.
    destruct (tstep s0 e) as [s1|] eqn:E; [|discriminate]. inversion H; subst s1; clear H.
    rewrite names_app in ND.
    assert (ND' : NoDup (names_of h)).
    { clear - ND. induction (names_of h) as [|x l IH]; [constructor|]. cbn [app] in ND. inversion ND; subst. constructor; [|auto]. intros I; apply H1, in_or_app; auto. }
    destruct (IH s0 eq_refl ND') as [L M].
    assert (KL : is_register e = false -> ts_names s = ts_names s0).
    { destruct e as [t c]. unfold is_register; cbn [snd]. intros R. destruct c; try discriminate; cbn [tstep] in E.
      - unfold start_timer, start_id in E. destruct (valid_id _ _); [destruct (t_running _); [discriminate|]|]; inversion E; reflexivity.
      - unfold end_timer, end_id in E. destruct (valid_id _ _); [destruct (t_running _); [|discriminate]|]; inversion E; reflexivity.
      - inversion E; reflexivity.
      - inversion E. unfold add_value, add_value_id. destruct (valid_id _ _); reflexivity.
      - inversion E. unfold add_time, add_time_id, add_value_id. destruct (valid_id _ _); reflexivity. }
    rewrite registrations_app. unfold registrations at 2. cbn [filter]. destruct (is_register e) eqn:R.
    - destruct e as [t c]; destruct c; try discriminate. cbn [tstep] in E. inversion E; subst; clear E. cbn [register_name ts_names].
      cbn [names_of] in ND. apply NoDup_remove_2 in ND. rewrite app_nil_r in ND.
      assert (F : map_find (ts_names s0) name = None).
      { destruct (map_find (ts_names s0) name) eqn:F; [|reflexivity]. exfalso. apply ND, M. congruence. }
      split.
      + cbn [Datatypes.length]. rewrite <- L. generalize (Datatypes.length (ts_timers s0)). clear - F. intros v.
        induction (ts_names s0) as [|[a b] r IH]; [reflexivity|]. cbn [map_find map_set] in *.
        destruct (String.eqb_spec name a); [discriminate|].
        destruct (String.compare name a) eqn:C; cbn [Datatypes.length].
        * apply String.compare_eq_iff in C. contradiction.
        * lia.
        * rewrite IH by exact F. lia.
      + intros m. rewrite find_set, names_app. cbn [names_of]. destruct (String.eqb_spec m name).
        * subst. split; [congruence|]. intros _. apply in_or_app. right; left; reflexivity.
        * rewrite <- M, in_app_iff. cbn. intuition congruence.
    - rewrite (KL eq_refl). cbn [Datatypes.length]. split; [lia|]. intros m. rewrite <- M, names_app, in_app_iff.
      assert (names_of [e] = []) as -> by (destruct e as [t c]; destruct c; try discriminate; reflexivity). cbn. tauto. }
  unfold print. rewrite (proj1 L). generalize (seq 0 (registrations h)). intros l.
  induction l as [|i l IH]; [reflexivity|]. cbn [collect map]. rewrite IH. reflexivity.
Qed.
Print Assumptions print_times.

(** REFUTED: looking up a name by id, and printing with names.  The lookup loop never advances, so
    with two or more names registered, printing with names never finishes - whatever the timers. *)
Theorem print_names_refuted : forall s amount fuel,
  (2 <= Datatypes.length (ts_names s))%nat -> amount <> 2 -> print s fuel amount = None.
Proof.
  intros s amount fuel L A.
  assert (G : forall i, snd (hd ("", 0%nat) (ts_names s)) <> i -> ts_names s <> [] -> get_name s fuel i = None).
  { intros i Hi Hn. unfold get_name. destruct (ts_names s) as [|[m j] r]; [contradiction|]. cbn [hd snd] in Hi.
    clear - Hi. induction fuel; cbn [get_name_loop]; [reflexivity|]. apply Nat.eqb_neq in Hi. rewrite Hi. exact IHfuel. }
  assert (NN : ts_names s <> []) by (destruct (ts_names s); [cbn in L; lia|discriminate]).
  assert (P : forall i, snd (hd ("", 0%nat) (ts_names s)) <> i -> print_item s fuel amount i = None).
  { intros i Hi. unfold print_item. apply Z.eqb_neq in A. rewrite A, (G i Hi NN). reflexivity. }
  unfold print. destruct (Datatypes.length (ts_names s)) as [|[|m]]; [lia|lia|]. cbn [seq collect].
  destruct (Nat.eq_dec (snd (hd ("", 0%nat) (ts_names s))) 0) as [E|E].
  - destruct (print_item s fuel amount 0); [|reflexivity]. rewrite (P 1%nat) by lia. reflexivity.
  - rewrite (P 0%nat E). reflexivity.
Qed.
Print Assumptions print_names_refuted.

(** REFUTED: "registering never loses time".  Registering a name again starts it from scratch. *)
Theorem reregister_refuted : exists h s,
  trun ts_new h = Some s /\ clock_from 0 h /\
  (exists h1 h2 s1, h = h1 ++ h2 /\ trun ts_new h1 = Some s1 /\ get_value s1 (ByName "T") = 7) /\
  get_value s (ByName "T") = 0.
Proof.
  exists [(0%nat, Register "T" 0); (1%nat, Start (ByName "T")); (8%nat, End (ByName "T")); (9%nat, Register "T" 0)].
  eexists. split; [vm_compute; reflexivity|]. split; [cbn; lia|]. split; [|vm_compute; reflexivity].
  exists [(0%nat, Register "T" 0); (1%nat, Start (ByName "T")); (8%nat, End (ByName "T"))], [(9%nat, Register "T" 0)].
  eexists. split; [reflexivity|]. split; vm_compute; reflexivity.
Qed.
Print Assumptions reregister_refuted.

(** A concrete program: two timers, interleaved, one addressed by id, one still running at the end. *)
Definition ex_prog : list (nat * tcall) :=
  [(3, Register "A" 0); (3, Register "B" 5); (4, Start (ByName "A")); (6, Start (ById 1)); (9, End (ByName "A"));
   (10, Start (ByName "A")); (12, End (ByName "B")); (12, AddTime (ByName "B") 1)]%nat.
Example ex_prog_meets : exists s,
  trun ts_new ex_prog = Some s /\ clock_from 0 ex_prog /\ NoDup (names_of ex_prog) /\
  get_total_time s 15 (ByName "A") = seconds 10 /\ get_value s (ById 1) = 1000011 /\
  trun ts_new (ex_prog ++ [(15%nat, Start (ById 0))]) = None.
Proof.
  eexists. split; [vm_compute; reflexivity|]. split; [cbn; lia|]. split.
  - cbn. repeat constructor; cbn; intuition congruence.
  - split; [vm_compute; reflexivity|]. split; vm_compute; reflexivity.
Qed.
