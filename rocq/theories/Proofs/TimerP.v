From Verif Require Import Prelude Model.TimeStats Spec.TimerSpec.
From Coq Require Import Lia.
Local Open Scope Z_scope.

Lemma find_set m k v k' : map_find (map_set m k v) k' = if String.eqb k' k then Some v else map_find m k'.
Proof.
  induction m as [|[a b] r IH]; cbn [map_set map_find].
  - destruct (String.eqb k' k); reflexivity.
  - destruct (String.compare k a) eqn:C; cbn [map_find].
    + apply String.compare_eq_iff in C. subst a. destruct (String.eqb k' k); reflexivity.
    + destruct (String.eqb k' k); reflexivity.
    + rewrite IH. destruct (String.eqb k' a) eqn:E1, (String.eqb k' k) eqn:E2; try reflexivity.
      apply String.eqb_eq in E1, E2. subst. pose proof (String.compare_antisym a a) as X. rewrite C in X. discriminate.
Qed.

Lemma upd_length {A} (l : list A) i f : Datatypes.length (upd l i f) = Datatypes.length l.
Proof. revert i; induction l; intros [|i]; cbn [upd Datatypes.length]; auto. Qed.
Lemma nth_upd {A} (l : list A) i j f d : (i < Datatypes.length l)%nat ->
  nth j (upd l i f) d = if Nat.eqb j i then f (nth j l d) else nth j l d.
Proof.
  revert i j; induction l as [|x r IH]; intros i j H; [cbn in H; lia|].
  destruct i, j; cbn [upd nth Nat.eqb]; auto. apply IH. cbn in H; lia.
Qed.

Lemma trun_app s h1 h2 : trun s (h1 ++ h2) = match trun s h1 with None => None | Some s' => trun s' h2 end.
Proof. revert s; induction h1 as [|e r IH]; intros s; cbn [trun app]; auto. destruct (tstep s e); auto. Qed.

Lemma valid_id_iff s id : valid_id s id = true <-> 0 <= id < Z.of_nat (Datatypes.length (ts_timers s)).
Proof. unfold valid_id. rewrite andb_true_iff, Z.leb_le, Z.ltb_lt. lia. Qed.

(** ids stay below the number of timers, the number of timers is the number of registrations *)
Definition names_ok (s : tstats) := forall m i, map_find (ts_names s) m = Some i -> (i < Datatypes.length (ts_timers s))%nat.

Lemma tstep_shape s e s' : tstep s e = Some s' ->
  Datatypes.length (ts_timers s') = (Datatypes.length (ts_timers s) + (if is_register e then 1 else 0))%nat /\
  (forall m, map_find (ts_names s') m =
     match snd e with Register n _ => if String.eqb m n then Some (Datatypes.length (ts_timers s)) else map_find (ts_names s) m
     | _ => map_find (ts_names s) m end).
Proof.
  destruct e as [now c]. unfold tstep, is_register. cbn [snd]. intros H.
  destruct c; cbn [start_timer end_timer] in H.
  - inversion H; subst; clear H. cbn [register_name ts_timers ts_names]. rewrite app_length. cbn [Datatypes.length].
    split; [lia|]. intros m. apply find_set.
  - unfold start_timer, start_id in H. destruct (valid_id _ _); [destruct (t_running _); [discriminate|]|]; inversion H; subst;
      cbn [set_timer ts_timers ts_names]; rewrite ?upd_length; split; auto; lia.
  - unfold end_timer, end_id in H. destruct (valid_id _ _); [destruct (t_running _); [|discriminate]|]; inversion H; subst;
      cbn [set_timer ts_timers ts_names]; rewrite ?upd_length; split; auto; lia.
  - inversion H; subst. cbn [end_all ts_timers ts_names]. rewrite map_length. split; auto; lia.
  - inversion H; subst. unfold add_value, add_value_id. destruct (valid_id _ _); cbn [set_timer ts_timers ts_names]; rewrite ?upd_length; split; auto; lia.
  - inversion H; subst. unfold add_time, add_time_id, add_value_id. destruct (valid_id _ _); cbn [set_timer ts_timers ts_names]; rewrite ?upd_length; split; auto; lia.
Qed.

Lemma registrations_app a b : registrations (a ++ b) = (registrations a + registrations b)%nat.
Proof. unfold registrations. rewrite filter_app, app_length. reflexivity. Qed.

Lemma trun_shape h s : trun ts_new h = Some s -> Datatypes.length (ts_timers s) = registrations h /\ names_ok s.
Proof.
  revert s. induction h as [|e h IH] using rev_ind; intros s H.
  - inversion H; subst. split; [reflexivity|]. intros m i Hi; discriminate.
  - rewrite trun_app in H. destruct (trun ts_new h) as [s0|] eqn:E; [|discriminate]. cbn [trun] in H.
    destruct (tstep s0 e) as [s1|] eqn:E1; [|discriminate]. inversion H; subst s1; clear H.
    destruct (IH _ eq_refl) as [L N]. destruct (tstep_shape _ _ _ E1) as [L1 F1].
    split.
    + rewrite registrations_app, L1, L. unfold registrations. cbn [filter]. destruct (is_register e); cbn [Datatypes.length]; lia.
    + intros m i. rewrite F1, L1. destruct e as [now c]; cbn [snd]. unfold is_register; cbn [snd].
      destruct c; try (intros Hi; apply N in Hi; lia).
      destruct (String.eqb m name); [intros Hi; inversion Hi; lia|intros Hi; apply N in Hi; lia].
Qed.

(** *** The clock *)
Lemma clock_from_app t a b : clock_from t (a ++ b) <-> clock_from t a /\ clock_from (last_reading t a) b.
Proof.
  revert t. induction a as [|e r IH]; intros t; cbn [clock_from app].
  - unfold last_reading; cbn. tauto.
  - rewrite IH. unfold last_reading. cbn [map].
    assert (X : last (fst e :: map fst r) t = last (map fst r) (fst e)).
    { clear. revert t. generalize (fst e). induction r as [|y r IH]; intros u t; [reflexivity|].
      cbn [map]. change (last (fst y :: map fst r) t = last (fst y :: map fst r) u). rewrite !IH. reflexivity. }
    rewrite X. tauto.
Qed.
Lemma clock_from_bounds t h : clock_from t h -> forall e, In e h -> (t <= fst e <= last_reading t h)%nat.
Proof.
  revert t. induction h as [|e0 h IH] using rev_ind; intros t C e I; [destruct I|].
  apply clock_from_app in C. destruct C as [C1 [C2 _]].
  assert (L : last_reading t (h ++ [e0]) = fst e0).
  { unfold last_reading. rewrite map_app. cbn [map]. apply last_last. }
  rewrite L. assert (t <= last_reading t h)%nat.
  { destruct h as [|e1 h']; [unfold last_reading; cbn; lia|]. specialize (IH _ C1 e1 (or_introl eq_refl)). lia. }
  apply in_app_or in I. destruct I as [I|[<-|[]]]; [specialize (IH _ C1 _ I); lia|lia].
Qed.
Lemma last_reading_ge t h : clock_from t h -> (t <= last_reading t h)%nat.
Proof.
  intros C. destruct h as [|e h]; [unfold last_reading; cbn; lia|].
  destruct (clock_from_bounds _ _ C e (or_introl eq_refl)). lia.
Qed.
Lemma last_reading_snoc t h e : last_reading t (h ++ [e]) = fst e.
Proof. unfold last_reading. rewrite map_app. cbn [map]. apply last_last. Qed.

Lemma is_on_snoc n id h e : is_on n id (h ++ [e]) = switch n id (is_on n id h) e.
Proof. unfold is_on. rewrite fold_left_app. reflexivity. Qed.

Lemma on_at_before n id h e u : (u < fst e)%nat -> on_at n id (h ++ [e]) u = on_at n id h u.
Proof.
  intros H. unfold on_at. rewrite filter_app. cbn [filter].
  destruct (Nat.leb_spec (fst e) u); [lia|]. rewrite app_nil_r. reflexivity.
Qed.
Lemma on_at_after n id t h u : clock_from t h -> (last_reading t h <= u)%nat -> on_at n id h u = is_on n id h.
Proof.
  intros C H. unfold on_at. f_equal. pose proof (clock_from_bounds _ _ C) as B.
  assert (forall e, In e h -> (fst e <= u)%nat) as B' by (intros e I; specialize (B e I); lia). clear - B'.
  induction h as [|e r IH]; [reflexivity|]. cbn [filter].
  destruct (Nat.leb_spec (fst e) u); [f_equal; apply IH; intros; apply B'; right; auto|].
  specialize (B' e (or_introl eq_refl)). lia.
Qed.

Lemma filter_const {A} (f : A -> bool) l b : (forall x, In x l -> f x = b) ->
  Datatypes.length (filter f l) = if b then Datatypes.length l else 0%nat.
Proof.
  induction l as [|x r IH]; intros H; cbn [filter Datatypes.length]; [destruct b; reflexivity|].
  rewrite (H x (or_introl eq_refl)). specialize (IH (fun y I => H y (or_intror I))).
  destruct b; cbn [Datatypes.length]; lia.
Qed.

Lemma ticks_extend n id t0 h now now' : clock_from t0 h -> (last_reading t0 h <= now <= now')%nat ->
  ticks_on n id h t0 now' = (ticks_on n id h t0 now + (if is_on n id h then now' - now else 0))%nat.
Proof.
  intros C [H1 H2]. pose proof (last_reading_ge _ _ C) as G. unfold ticks_on.
  replace (now' - t0)%nat with ((now - t0) + (now' - now))%nat by lia.
  rewrite seq_app, filter_app, app_length. f_equal.
  rewrite (filter_const _ _ (is_on n id h)).
  - rewrite seq_length. reflexivity.
  - intros x I. apply in_seq in I. apply (on_at_after n id t0); [exact C|lia].
Qed.
Lemma ticks_snoc n id t0 h e now : (now <= fst e)%nat ->
  ticks_on n id (h ++ [e]) t0 now = ticks_on n id h t0 now.
Proof.
  intros H. unfold ticks_on. f_equal.
  assert (X : forall l, (forall u, In u l -> (u < now)%nat) -> filter (on_at n id (h ++ [e])) l = filter (on_at n id h) l).
  { induction l as [|u l IH]; intros B; [reflexivity|]. cbn [filter]. rewrite on_at_before; [|specialize (B u (or_introl eq_refl)); lia].
    rewrite IH; [reflexivity|intros; apply B; right; auto]. }
  apply X. intros u I. apply in_seq in I. lia.
Qed.

Lemma added_app n id a b : added n id (a ++ b) = added n id a + added n id b.
Proof.
  induction a as [|[t c] r IH]; cbn [added app]; [lia|]. destruct c; rewrite IH; lia.
Qed.

(** *** The state of one timer *)
Record tinv (n : string) (id : nat) (v : Z) (t0 : nat) (h2 : list (nat * tcall)) (s : tstats) : Prop := {
  ti_id : (id < Datatypes.length (ts_timers s))%nat;
  ti_name : map_find (ts_names s) n = Some id;
  ti_other : forall m i, m <> n -> map_find (ts_names s) m = Some i -> i <> id;
  ti_run : t_running (timer_at s (Z.of_nat id)) = is_on n id h2;
  ti_val : forall now, (last_reading t0 h2 <= now)%nat ->
     t_value (timer_at s (Z.of_nat id)) + (if is_on n id h2 then Z.of_nat now - Z.of_nat (t_start (timer_at s (Z.of_nat id))) else 0)
     = v + added n id h2 + Z.of_nat (ticks_on n id h2 t0 now)
}.

Lemma resolve_addr n id v t0 h2 s k : tinv n id v t0 h2 s -> (resolve s k =? Z.of_nat id) = addresses n id k.
Proof.
  intros I. destruct k as [m|i]; cbn [resolve addresses]; [|reflexivity].
  unfold get_id. destruct (String.eqb m n) eqn:E.
  - apply String.eqb_eq in E. subst m. rewrite (ti_name _ _ _ _ _ _ I). apply Z.eqb_refl.
  - apply String.eqb_neq in E. destruct (map_find (ts_names s) m) as [i|] eqn:F.
    + pose proof (ti_other _ _ _ _ _ _ I m i E F). apply Z.eqb_neq; lia.
    + apply Z.eqb_neq; lia.
Qed.

Lemma timer_at_set s id j f : valid_id s id = true -> 0 <= j ->
  timer_at (set_timer s id f) j = if id =? j then f (timer_at s j) else timer_at s j.
Proof.
  intros V J. apply valid_id_iff in V. unfold timer_at, set_timer. cbn [ts_timers].
  rewrite nth_upd by lia. destruct (Z.eqb_spec id j) as [->|N].
  - rewrite Nat.eqb_refl. reflexivity.
  - destruct (Nat.eqb_spec (Z.to_nat j) (Z.to_nat id)); [lia|reflexivity].
Qed.

(** what one call does to the timer *)
Definition effect (n : string) (id : nat) (e : nat * tcall) (t : timer) : timer :=
  match snd e with
  | Start k => if addresses n id k then {| t_start := fst e; t_value := t_value t; t_running := true |} else t
  | End k => if addresses n id k then stop (fst e) t else t
  | EndAll => if t_running t then stop (fst e) t else t
  | AddValue k v => if addresses n id k then {| t_start := t_start t; t_value := t_value t + v; t_running := t_running t |} else t
  | AddTime k v => if addresses n id k then {| t_start := t_start t; t_value := t_value t + v * CLOCKS_PER_SEC; t_running := t_running t |} else t
  | Register _ _ => t
  end.
(** when it trips an assertion on this timer *)
Definition misuse (n : string) (id : nat) (on : bool) (e : nat * tcall) : bool :=
  match snd e with
  | Start k => addresses n id k && on
  | End k => addresses n id k && negb on
  | _ => false
  end.

Lemma tstep_effect n id v t0 h2 s e s' : tinv n id v t0 h2 s -> tstep s e = Some s' ->
  timer_at s' (Z.of_nat id) = effect n id e (timer_at s (Z.of_nat id)) /\ misuse n id (is_on n id h2) e = false.
Proof.
  intros I H. destruct e as [now c]. unfold tstep in H. unfold effect, misuse; cbn [fst snd].
  pose proof (ti_id _ _ _ _ _ _ I) as L. pose proof (ti_run _ _ _ _ _ _ I) as R.
  destruct c.
  - inversion H; subst. split; [|reflexivity]. unfold timer_at, register_name; cbn [ts_timers].
    rewrite app_nth1 by (rewrite Nat2Z.id; exact L). reflexivity.
  - unfold start_timer, start_id in H. pose proof (resolve_addr _ _ _ _ _ _ k I) as RA.
    destruct (valid_id s (resolve s k)) eqn:V.
    + destruct (t_running (timer_at s (resolve s k))) eqn:T; [discriminate|]. inversion H; subst; clear H.
      rewrite timer_at_set by (auto; lia). rewrite RA. destruct (addresses n id k) eqn:A; [|auto].
      apply Z.eqb_eq in RA. rewrite RA in T. rewrite T in R. rewrite <- R. auto.
    + inversion H; subst. destruct (addresses n id k); [|auto]. apply Z.eqb_eq in RA. rewrite RA in V.
      assert (valid_id s' (Z.of_nat id) = true) by (apply valid_id_iff; lia). congruence.
  - unfold end_timer, end_id in H. pose proof (resolve_addr _ _ _ _ _ _ k I) as RA.
    destruct (valid_id s (resolve s k)) eqn:V.
    + destruct (t_running (timer_at s (resolve s k))) eqn:T; [|discriminate]. inversion H; subst; clear H.
      rewrite timer_at_set by (auto; lia). rewrite RA. destruct (addresses n id k) eqn:A; [|auto].
      apply Z.eqb_eq in RA. rewrite RA in T. rewrite T in R. rewrite <- R. auto.
    + inversion H; subst. destruct (addresses n id k); [|auto]. apply Z.eqb_eq in RA. rewrite RA in V.
      assert (valid_id s' (Z.of_nat id) = true) by (apply valid_id_iff; lia). congruence.
  - inversion H; subst. split; [|reflexivity]. unfold end_all, timer_at; cbn [ts_timers].
    rewrite <- (map_nth (fun t => if t_running t then stop now t else t)). reflexivity.
  - inversion H; subst. split; [|reflexivity]. unfold add_value, add_value_id. pose proof (resolve_addr _ _ _ _ _ _ k I) as RA.
    destruct (valid_id s (resolve s k)) eqn:V.
    + rewrite timer_at_set by (auto; lia). rewrite RA. reflexivity.
    + destruct (addresses n id k); [|auto]. apply Z.eqb_eq in RA. rewrite RA in V.
      assert (valid_id s (Z.of_nat id) = true) by (apply valid_id_iff; lia). congruence.
  - inversion H; subst. split; [|reflexivity]. unfold add_time, add_time_id, add_value_id. pose proof (resolve_addr _ _ _ _ _ _ k I) as RA.
    destruct (valid_id s (resolve s k)) eqn:V.
    + rewrite timer_at_set by (auto; lia). rewrite RA. reflexivity.
    + destruct (addresses n id k); [|auto]. apply Z.eqb_eq in RA. rewrite RA in V.
      assert (valid_id s (Z.of_nat id) = true) by (apply valid_id_iff; lia). congruence.
Qed.

Lemma tinv_step n id v t0 h2 s e s' : tinv n id v t0 h2 s -> clock_from t0 (h2 ++ [e]) -> ~ registers n e ->
  tstep s e = Some s' -> tinv n id v t0 (h2 ++ [e]) s'.
Proof.
  intros I C NR H. destruct (tstep_shape _ _ _ H) as [L F]. destruct (tstep_effect _ _ _ _ _ _ _ _ I H) as [E M].
  apply clock_from_app in C. destruct C as [C1 [C2 _]].
  assert (CC : clock_from t0 (h2 ++ [e])) by (apply clock_from_app; split; [exact C1|split; [exact C2|exact Logic.I]]).
  pose proof (ti_id _ _ _ _ _ _ I) as Li. pose proof (ti_run _ _ _ _ _ _ I) as R.
  split.
  - rewrite L. lia.
  - rewrite F. destruct e as [now c]; cbn [snd]. destruct c; try apply (ti_name _ _ _ _ _ _ I).
    destruct (String.eqb_spec n name); [|apply (ti_name _ _ _ _ _ _ I)].
    subst. exfalso. apply NR. eexists; reflexivity.
  - intros m i Nm. rewrite F. destruct e as [now c]; cbn [snd]. destruct c; try (apply (ti_other _ _ _ _ _ _ I); exact Nm).
    destruct (String.eqb m name); [intros X; inversion X; lia|apply (ti_other _ _ _ _ _ _ I); exact Nm].
  - rewrite E, is_on_snoc. unfold effect, switch. destruct e as [now c]; cbn [snd fst].
    destruct c; auto; try (destruct (addresses n id k); auto).
    destruct (t_running (timer_at s (Z.of_nat id))) eqn:T; [reflexivity|exact T].
  - intros now Hn. rewrite last_reading_snoc in Hn.
    pose proof (ti_val _ _ _ _ _ _ I (fst e) C2) as V.
    rewrite (ticks_extend n id t0 (h2 ++ [e]) (fst e) now) by (try exact CC; rewrite last_reading_snoc; lia).
    rewrite ticks_snoc by lia. rewrite Nat2Z.inj_add.
    rewrite added_app, is_on_snoc, E.
    set (T := timer_at s (Z.of_nat id)) in *. clearbody T.
    destruct e as [te c]; unfold effect, switch, misuse in *; cbn [snd fst added] in *.
    rewrite <- R in *.
    destruct c; cbn [added]; try (destruct (addresses n id k) eqn:A); cbn [t_start t_value stop andb negb] in *.
    + destruct (t_running T); lia.
    + rewrite M in V. lia.
    + destruct (t_running T); lia.
    + assert (M' : t_running T = true) by (destruct (t_running T); [reflexivity|discriminate]). rewrite M' in V. lia.
    + destruct (t_running T); lia.
    + destruct (t_running T); cbn [t_start t_value stop]; lia.
    + destruct (t_running T); cbn [t_start t_value stop]; lia.
    + destruct (t_running T); lia.
    + destruct (t_running T); cbn [t_start t_value stop]; lia.
    + destruct (t_running T); lia.
Qed.

Lemma tinv_start h1 t0 n v s1 : trun ts_new h1 = Some s1 ->
  tinv n (registrations h1) v t0 [] (register_name s1 t0 n v).
Proof.
  intros H. destruct (trun_shape _ _ H) as [L N]. split.
  - cbn [register_name ts_timers]. rewrite app_length. cbn [Datatypes.length]. lia.
  - cbn [register_name ts_names]. rewrite find_set, String.eqb_refl. congruence.
  - intros m i Nm. cbn [register_name ts_names]. rewrite find_set. apply String.eqb_neq in Nm. rewrite Nm.
    intros F. apply N in F. lia.
  - unfold timer_at, register_name; cbn [ts_timers]. rewrite Nat2Z.id, app_nth2 by lia. rewrite L, Nat.sub_diag. reflexivity.
  - intros now Hn. unfold timer_at, register_name; cbn [ts_timers]. rewrite Nat2Z.id, app_nth2 by lia. rewrite L, Nat.sub_diag. cbn [nth t_value is_on fold_left added].
    unfold ticks_on. rewrite (filter_const _ _ false); [lia|reflexivity].
Qed.

Lemma timer_state h1 t0 n v h2 s :
  clock_from t0 h2 -> (forall e, In e h2 -> ~ registers n e) ->
  trun ts_new (h1 ++ (t0, Register n v) :: h2) = Some s ->
  tinv n (registrations h1) v t0 h2 s.
Proof.
  intros C NR H. rewrite trun_app in H. destruct (trun ts_new h1) as [s1|] eqn:E1; [|discriminate].
  cbn [trun tstep] in H. pose proof (tinv_start h1 t0 n v s1 E1) as I0.
  revert s H C NR. induction h2 as [|e h2 IH] using rev_ind; intros s H C NR.
  - inversion H; subst. exact I0.
  - rewrite trun_app in H. destruct (trun _ h2) as [s2|] eqn:E2; [|discriminate]. cbn [trun] in H.
    destruct (tstep s2 e) as [s3|] eqn:E3; [|discriminate]. inversion H; subst s3; clear H.
    apply clock_from_app in C as C'. destruct C' as [C1 C2].
    eapply tinv_step; eauto.
    + apply IH; auto. intros e' I. apply NR. apply in_or_app; auto.
    + apply NR. apply in_or_app; right; left; reflexivity.
Qed.
