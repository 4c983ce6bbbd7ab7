From Verif Require Import Prelude Model.TimeStats Model.TimerUse Spec.TimerSpec Proofs.TimerP.
From Coq Require Import Lia DecimalString.
Local Open Scope Z_scope.

(** abstract state: which names are on; which extra names are known to be registered *)
Record abs := { on : list string; ext : list string }.
Definition ignored : string := time_T1 "TOTAL".

Record models (a : abs) (s : tstats) : Prop := {
  m_ok : names_ok s;
  m_base : forall i n, nth_error base_names i = Some n -> map_find (ts_names s) n = Some i;
  m_ext : forall n, In n (ext a) -> map_find (ts_names s) n <> None;
  m_inj : forall m n i, map_find (ts_names s) m = Some i -> map_find (ts_names s) n = Some i -> m = n;
  m_on : forall n i, map_find (ts_names s) n = Some i -> (t_running (timer_at s (Z.of_nat i)) = true <-> In n (on a));
  m_reg : forall n, In n (on a) -> map_find (ts_names s) n <> None;
  m_own : forall i, (i < Datatypes.length (ts_timers s))%nat -> t_running (timer_at s (Z.of_nat i)) = true -> exists n, map_find (ts_names s) n = Some i;
  m_ign : map_find (ts_names s) ignored = None
}.

Definition inb (n : string) (l : list string) : bool := existsb (String.eqb n) l.
Lemma inb_in n l : inb n l = true <-> In n l.
Proof. unfold inb. rewrite existsb_exists. split; [intros (x & I & E); apply String.eqb_eq in E; subst; auto|intros I; exists n; split; [auto|apply String.eqb_refl]]. Qed.
Lemma inb_nin n l : inb n l = false <-> ~ In n l.
Proof. rewrite <- inb_in. destruct (inb n l); intuition congruence. Qed.

Definition registered_b (a : abs) (n : string) : bool := inb n base_names || inb n (ext a).
Definition removeb (n : string) (l : list string) : list string := filter (fun m => negb (String.eqb n m)) l.

(** the name a key is known to address *)
Definition key_name (k : key) : option string :=
  match k with ByName n => Some n | ById i => if (i <? 0) then None else nth_error base_names (Z.to_nat i) end.

Fixpoint wp (c : cmd) (Qn Qr : abs -> Prop) (a : abs) : Prop :=
  match c with
  | Skip => Qn a
  | Return => Qr a
  | Exit => True
  | TC (Register n _) =>
      inb n (on a) = false /\ inb n base_names = false /\ String.eqb n ignored = false /\ Qn {| on := on a; ext := n :: ext a |}
  | TC (Start k) =>
      match key_name k with
      | None => False
      | Some n => if String.eqb n ignored then Qn a
                  else registered_b a n = true /\ inb n (on a) = false /\ Qn {| on := n :: on a; ext := ext a |}
      end
  | TC (End k) =>
      match key_name k with
      | None => False
      | Some n => if String.eqb n ignored then Qn a
                  else registered_b a n = true /\ inb n (on a) = true /\ Qn {| on := removeb n (on a); ext := ext a |}
      end
  | TC _ => False
  | Seq x y => wp x (wp y Qn Qr) Qr a
  | Alt x y => wp x Qn Qr a /\ wp y Qn Qr a
  | Loop x => let a0 := {| on := on a; ext := [] |} in
              wp x (fun a' => on a' = on a) Qr a0 /\ Qn a0
  | Any f => forall i, wp (f i) Qn Qr a
  | Call x => wp x Qn Qn a
  end.

Lemma models_forget a s : models a s -> models {| on := on a; ext := [] |} s.
Proof. intros [A B C D E F G H]. split; auto; cbn [ext]; intros n []. Qed.
Lemma models_on a b s : models a s -> on b = on a -> ext b = [] -> models b s.
Proof. intros [A B C D E F G H] O X. split; auto; rewrite ?O, ?X; auto; intros n []. Qed.

Lemma in_base_nth n : inb n base_names = true -> exists i, nth_error base_names i = Some n.
Proof. intros H. apply inb_in in H. apply In_nth_error in H. exact H. Qed.

Lemma registered_known a s n : models a s -> registered_b a n = true -> exists i, map_find (ts_names s) n = Some i.
Proof.
  intros M R. unfold registered_b in R. apply orb_true_iff in R. destruct R as [R|R].
  - apply in_base_nth in R. destruct R as [i R]. exists i. apply (m_base _ _ M); exact R.
  - apply inb_in in R. pose proof (m_ext _ _ M _ R) as X. destruct (map_find (ts_names s) n) as [i|]; [eauto|congruence].
Qed.

Lemma key_resolve a s k n : models a s -> key_name k = Some n -> forall i, map_find (ts_names s) n = Some i -> resolve s k = Z.of_nat i.
Proof.
  intros M K i F. destruct k as [m|j]; cbn [key_name resolve] in *.
  - inversion K; subst. unfold get_id. rewrite F. reflexivity.
  - destruct (Z.ltb_spec j 0); [discriminate|]. apply (m_base _ _ M) in K. rewrite F in K. inversion K. lia.
Qed.
Lemma key_ignored s k a : models a s -> key_name k = Some ignored -> resolve s k = -1.
Proof.
  intros M K. destruct k as [m|j]; cbn [key_name resolve] in *.
  - inversion K; subst. unfold get_id. rewrite (m_ign _ _ M). reflexivity.
  - destruct (Z.ltb_spec j 0); [discriminate|]. apply (m_base _ _ M) in K. rewrite (m_ign _ _ M) in K. discriminate.
Qed.

Lemma removeb_in n m l : In m (removeb n l) <-> In m l /\ m <> n.
Proof.
  unfold removeb. rewrite filter_In. rewrite negb_true_iff, String.eqb_neq. intuition congruence.
Qed.

Lemma models_set a s i f n :
  models a s -> map_find (ts_names s) n = Some i ->
  forall b, t_running (f (timer_at s (Z.of_nat i))) = b ->
  forall l, (forall m, In m l <-> if b then (m = n \/ In m (on a)) else (In m (on a) /\ m <> n)) ->
  models {| on := l; ext := ext a |} (set_timer s (Z.of_nat i) f).
Proof.
  intros M F b B l L. pose proof (m_ok _ _ M _ _ F) as Li.
  assert (V : valid_id s (Z.of_nat i) = true) by (apply valid_id_iff; lia).
  assert (T : forall j, timer_at (set_timer s (Z.of_nat i) f) (Z.of_nat j) = if Nat.eqb i j then f (timer_at s (Z.of_nat j)) else timer_at s (Z.of_nat j)).
  { intros j. rewrite timer_at_set by (auto; lia). destruct (Nat.eqb_spec i j), (Z.eqb_spec (Z.of_nat i) (Z.of_nat j)); try lia; reflexivity. }
  split; cbn [on ext set_timer ts_names ts_timers].
  - intros m j Fm. unfold set_timer. cbn [ts_timers]. rewrite upd_length. apply (m_ok _ _ M _ _ Fm).
  - apply (m_base _ _ M).
  - apply (m_ext _ _ M).
  - apply (m_inj _ _ M).
  - intros m j Fm. rewrite L, T. destruct (Nat.eqb_spec i j) as [<-|N].
    + assert (m = n) by (eapply (m_inj _ _ M); eauto). subst m. rewrite B. destruct b; intuition congruence.
    + rewrite (m_on _ _ M _ _ Fm). assert (m <> n) by congruence. destruct b; intuition congruence.
  - intros m I. apply L in I. destruct b; [destruct I as [->|I]|destruct I as [I _]]; try congruence; apply (m_reg _ _ M); exact I.
  - intros j Lj. rewrite upd_length in Lj. rewrite T. destruct (Nat.eqb_spec i j) as [<-|N]; [eauto|]. apply (m_own _ _ M); exact Lj.
  - apply (m_ign _ _ M).
Qed.

Lemma wp_sound : forall c s o s', runs c s o s' -> forall Qn Qr a, wp c Qn Qr a -> models a s ->
  o <> AssertFails /\
  (o = Norm -> exists a', models a' s' /\ Qn a') /\
  (o = Ret -> exists a', models a' s' /\ Qr a').
Proof.
  induction 1; intros Qn Qr A W M; cbn [wp] in W.
  - split; [discriminate|]. split; [eauto|discriminate].
  - split; [discriminate|]. split; [intros _|discriminate].
    destruct c as [n v|k|k| |k v|k v]; try contradiction.
    + destruct W as (W1 & W2 & W3 & W4). eexists. split; [|exact W4].
      cbn [tstep] in H. inversion H; subst; clear H.
      assert (F : forall m, map_find (ts_names (register_name s now n v)) m = if String.eqb m n then Some (Datatypes.length (ts_timers s)) else map_find (ts_names s) m)
        by (intros m; apply find_set).
      assert (T : forall i, timer_at (register_name s now n v) (Z.of_nat i) = if Nat.ltb i (Datatypes.length (ts_timers s)) then timer_at s (Z.of_nat i)
                            else nth (i - Datatypes.length (ts_timers s)) [{| t_start := now; t_value := v; t_running := false |}] timer0).
      { intros i. unfold timer_at, register_name; cbn [ts_timers]. rewrite Nat2Z.id. destruct (Nat.ltb_spec i (Datatypes.length (ts_timers s))); [apply app_nth1; auto|apply app_nth2; lia]. }
      assert (TF : forall i, (Datatypes.length (ts_timers s) <= i)%nat -> t_running (timer_at (register_name s now n v) (Z.of_nat i)) = false).
      { intros i Hi. rewrite T. destruct (Nat.ltb_spec i (Datatypes.length (ts_timers s))); [lia|].
        destruct (i - Datatypes.length (ts_timers s))%nat as [|[|d]]; reflexivity. }
      apply inb_nin in W1, W2. apply String.eqb_neq in W3.
      split; cbn [on ext].
      * intros m i Hm. rewrite F in Hm. cbn [register_name ts_timers]. rewrite app_length; cbn [Datatypes.length].
        destruct (String.eqb m n); [inversion Hm; lia|]. apply (m_ok _ _ M) in Hm. lia.
      * intros i m Hm. rewrite F. destruct (String.eqb_spec m n) as [->|N]; [|apply (m_base _ _ M); auto].
        apply nth_error_In in Hm. contradiction.
      * intros m [<-|I]; rewrite F.
        -- rewrite String.eqb_refl. discriminate.
        -- destruct (String.eqb m n); [discriminate|]. apply (m_ext _ _ M); exact I.
      * intros m m' i. rewrite !F. destruct (String.eqb_spec m n) as [->|N1], (String.eqb_spec m' n) as [->|N2]; auto.
        -- intros E1 E2. inversion E1; subst. apply (m_ok _ _ M) in E2. lia.
        -- intros E1 E2. inversion E2; subst. apply (m_ok _ _ M) in E1. lia.
        -- apply (m_inj _ _ M).
      * intros m i Hm. rewrite F in Hm. destruct (String.eqb_spec m n) as [->|N].
        -- inversion Hm; subst. rewrite TF by lia. split; [discriminate|contradiction].
        -- rewrite T. pose proof (m_ok _ _ M _ _ Hm). destruct (Nat.ltb_spec i (Datatypes.length (ts_timers s))); [|lia]. apply (m_on _ _ M); exact Hm.
      * intros m I. rewrite F. destruct (String.eqb m n); [discriminate|]. apply (m_reg _ _ M); exact I.
      * intros i Li R. destruct (Nat.ltb_spec i (Datatypes.length (ts_timers s))) as [B|B].
        -- rewrite T in R. rewrite (proj2 (Nat.ltb_lt _ _) B) in R. destruct (m_own _ _ M i B R) as [m Hm].
           exists m. rewrite F. destruct (String.eqb_spec m n) as [->|N]; [|exact Hm].
           exfalso. apply W1. apply (m_on _ _ M _ _ Hm). exact R.
        -- rewrite TF in R by lia. discriminate.
      * rewrite F. destruct (String.eqb_spec ignored n); [congruence|apply (m_ign _ _ M)].
    + cbn [tstep] in H. unfold start_timer in H. destruct (key_name k) as [n|] eqn:K; [|contradiction].
      destruct (String.eqb_spec n ignored) as [->|N].
      * rewrite (key_ignored _ _ _ M K) in H. inversion H; subst. eauto.
      * destruct W as (W1 & W2 & W3). destruct (registered_known _ _ _ M W1) as [i F].
        rewrite (key_resolve _ _ _ _ M K _ F) in H. unfold start_id in H.
        assert (V : valid_id s (Z.of_nat i) = true) by (apply valid_id_iff; pose proof (m_ok _ _ M _ _ F); lia).
        rewrite V in H. destruct (t_running (timer_at s (Z.of_nat i))); [discriminate|]. inversion H; subst; clear H.
        eexists. split; [|exact W3]. eapply models_set with (b := true); eauto. intros m. cbn. intuition congruence.
    + cbn [tstep] in H. unfold end_timer in H. destruct (key_name k) as [n|] eqn:K; [|contradiction].
      destruct (String.eqb_spec n ignored) as [->|N].
      * rewrite (key_ignored _ _ _ M K) in H. inversion H; subst. eauto.
      * destruct W as (W1 & W2 & W3). destruct (registered_known _ _ _ M W1) as [i F].
        rewrite (key_resolve _ _ _ _ M K _ F) in H. unfold end_id in H.
        assert (V : valid_id s (Z.of_nat i) = true) by (apply valid_id_iff; pose proof (m_ok _ _ M _ _ F); lia).
        rewrite V in H. destruct (t_running (timer_at s (Z.of_nat i))); [|discriminate]. inversion H; subst; clear H.
        eexists. split; [|exact W3]. eapply models_set with (b := false); eauto. intros m. rewrite removeb_in. reflexivity.
  - exfalso. destruct c as [n v|k|k| |k v|k v]; try contradiction; try discriminate.
    + cbn [tstep] in H. unfold start_timer in H. destruct (key_name k) as [n|] eqn:K; [|contradiction].
      destruct (String.eqb_spec n ignored) as [->|N].
      * rewrite (key_ignored _ _ _ M K) in H. discriminate.
      * destruct W as (W1 & W2 & W3). destruct (registered_known _ _ _ M W1) as [i F].
        rewrite (key_resolve _ _ _ _ M K _ F) in H. unfold start_id in H.
        destruct (valid_id s (Z.of_nat i)); [|discriminate].
        destruct (t_running (timer_at s (Z.of_nat i))) eqn:R; [|discriminate].
        apply (m_on _ _ M _ _ F) in R. apply inb_nin in W2. contradiction.
    + cbn [tstep] in H. unfold end_timer in H. destruct (key_name k) as [n|] eqn:K; [|contradiction].
      destruct (String.eqb_spec n ignored) as [->|N].
      * rewrite (key_ignored _ _ _ M K) in H. discriminate.
      * destruct W as (W1 & W2 & W3). destruct (registered_known _ _ _ M W1) as [i F].
        rewrite (key_resolve _ _ _ _ M K _ F) in H. unfold end_id in H.
        destruct (valid_id s (Z.of_nat i)); [|discriminate].
        destruct (t_running (timer_at s (Z.of_nat i))) eqn:R; [discriminate|].
        apply inb_in, (m_on _ _ M _ _ F) in W2. congruence.
  - destruct (IHruns1 _ _ _ W M) as (_ & N & _). destruct (N eq_refl) as (a1 & M1 & W1).
    exact (IHruns2 _ _ _ W1 M1).
  - destruct (IHruns _ _ _ W M) as (NF & N & R). split; [exact NF|]. split; [congruence|exact R].
  - destruct W as [W _]. exact (IHruns _ _ _ W M).
  - destruct W as [_ W]. exact (IHruns _ _ _ W M).
  - destruct W as [_ W]. split; [discriminate|]. split; [|discriminate]. intros _. eexists. split; [apply models_forget; exact M|exact W].
  - assert (W' := W). destruct W as [Wb Wn]. destruct (IHruns1 _ _ _ Wb (models_forget _ _ M)) as (_ & N & _).
    destruct (N eq_refl) as (a1 & M1 & E1).
    apply (IHruns2 Qn Qr {| on := on A; ext := [] |} W'). apply (models_on _ _ _ M1); auto.
  - destruct W as [Wb Wn]. destruct (IHruns _ _ _ Wb (models_forget _ _ M)) as (NF & _ & R). split; [exact NF|]. split; [congruence|exact R].
  - exact (IHruns _ _ _ (W i) M).
  - split; [discriminate|]. split; [discriminate|eauto].
  - split; [discriminate|]. split; discriminate.
  - destruct (IHruns _ _ _ W M) as (NF & N & R). split; [destruct o; congruence|].
    destruct o; split; try discriminate; auto.
Qed.

Lemma initialize_models now : models {| on := []; ext := [] |} (initialize now).
Proof.
  assert (E : exists r, ts_names (initialize now) = r /\ r = ts_names (initialize 0)) by (eexists; split; [reflexivity|vm_compute; reflexivity]).
  destruct E as (r & E & Er).
  assert (X : forall n i, map_find r n = Some i -> nth_error base_names i = Some n).
  { subst r. rewrite Er. intros n i. vm_compute ts_names. cbn [map_find].
    repeat (match goal with |- context [String.eqb n ?x] => destruct (String.eqb_spec n x); [intros Hx; inversion Hx; subst; reflexivity|] end). discriminate. }
  assert (R : forall i, t_running (timer_at (initialize now) (Z.of_nat i)) = false).
  { intros i. unfold timer_at. rewrite Nat2Z.id. do 25 (destruct i as [|i]; [reflexivity|]). reflexivity. }
  split; cbn [on ext].
  - intros m i Hm. rewrite E in Hm. apply X in Hm. assert (i < Datatypes.length base_names)%nat by (apply nth_error_Some; congruence).
    change (Datatypes.length (ts_timers (initialize now))) with 20%nat. cbn in H. exact H.
  - intros i n Hn. rewrite E, Er. do 20 (destruct i as [|i]; [cbn in Hn; inversion Hn; subst; vm_compute; reflexivity|]). destruct i; discriminate.
  - intros n [].
  - intros m n i Hm Hn. rewrite E in *. apply X in Hm, Hn. congruence.
  - intros n i _. rewrite R. split; [discriminate|intros []].
  - intros n [].
  - intros i _ Hi. rewrite R in Hi. discriminate.
  - rewrite E, Er. vm_compute. reflexivity.
Qed.

Lemma to_string_not_total i : to_string i <> "TOTAL".
Proof. unfold to_string. destruct (Nat.to_uint i); cbn; congruence. Qed.
Lemma T1_not_ignored i : String.eqb (time_T1 (to_string i)) ignored = false.
Proof.
  apply String.eqb_neq. unfold ignored, time_T1. cbn [append]. intros H. injection H. apply to_string_not_total.
Qed.

Lemma wp_mono c : forall (Qn Qn' Qr Qr' : abs -> Prop) a, (forall x, Qn x -> Qn' x) -> (forall x, Qr x -> Qr' x) -> wp c Qn Qr a -> wp c Qn' Qr' a.
Proof.
  induction c; intros Qn Qn' Qr Qr' A HN HR W; cbn [wp] in *; auto.
  - destruct c; try contradiction.
    + destruct W as (? & ? & ? & ?); auto 6.
    + destruct (key_name k); [|contradiction]. destruct (String.eqb s ignored); [auto|]. destruct W as (? & ? & ?); auto.
    + destruct (key_name k); [|contradiction]. destruct (String.eqb s ignored); [auto|]. destruct W as (? & ? & ?); auto.
  - eapply IHc1; [| |exact W]; [|exact HR]. intros x Hx. eapply IHc2; eauto.
  - destruct W; split; [eapply IHc1|eapply IHc2]; eauto.
  - destruct W as [W1 W2]. split; [|auto]. eapply IHc; [| |exact W1]; auto.
  - intros i. eapply H; eauto.
  - eapply IHc; [| |exact W]; auto.
Qed.

(** [c] leaves exactly the timers on that were on, however it ends, if none of [names] was on *)
Definition bal (names : list string) (c : cmd) : Prop :=
  forall L e, (forall n, In n names -> inb n L = false) ->
  wp c (fun x => on x = L) (fun x => on x = L) {| on := L; ext := e |}.

Lemma bal_use names c L a (Qn Qr : abs -> Prop) :
  bal names c -> on a = L -> (forall n, In n names -> inb n L = false) ->
  (forall e, Qn {| on := L; ext := e |}) -> (forall e, Qr {| on := L; ext := e |}) -> wp c Qn Qr a.
Proof.
  intros B E N HN HR. destruct a as [l e]; cbn [on] in E; subst l.
  eapply wp_mono; [| |apply (B L e N)]; cbn beta; intros [l e'] X; cbn [on] in X; subst l; auto.
Qed.

Lemma bal_mono names names' c : bal names c -> incl names names' -> bal names' c.
Proof. intros B I L e H. apply B. auto. Qed.
Lemma bal_skip : bal [] Skip. Proof. intros L e _. reflexivity. Qed.
Lemma bal_return : bal [] Return. Proof. intros L e _. reflexivity. Qed.
Lemma bal_exit : bal [] Exit. Proof. intros L e _. exact I. Qed.
Lemma bal_seq n1 n2 a b : bal n1 a -> bal n2 b -> bal (n1 ++ n2) (Seq a b).
Proof.
  intros A B L e H. cbn [wp].
  eapply (bal_use n1 a L); [exact A|reflexivity| | |].
  - intros n I. apply H, in_or_app; auto.
  - intros e'. apply B. intros n I. apply H, in_or_app; auto.
  - reflexivity.
Qed.
Lemma bal_alt n1 n2 a b : bal n1 a -> bal n2 b -> bal (n1 ++ n2) (Alt a b).
Proof.
  intros A B L e H. cbn [wp]. split; [apply A|apply B]; intros n I; apply H, in_or_app; auto.
Qed.
Lemma bal_maybe n a : bal n a -> bal n (Maybe a).
Proof. intros A. rewrite <- (app_nil_r n). apply bal_alt; [exact A|apply bal_skip]. Qed.
Lemma bal_loop n a : bal n a -> bal n (Loop a).
Proof. intros A L e H. cbn [wp on]. split; [apply A; exact H|reflexivity]. Qed.
Lemma bal_call n a : bal n a -> bal n (Call a).
Proof. intros A L e H. cbn [wp]. apply A; exact H. Qed.
Lemma bal_any n f : (forall i, bal n (f i)) -> bal n (Any f).
Proof. intros A L e H i. apply A; exact H. Qed.

Lemma removeb_head n L : inb n L = false -> removeb n (n :: L) = L.
Proof.
  intros H. unfold removeb. cbn [filter]. rewrite String.eqb_refl. cbn [negb].
  apply inb_nin in H. induction L as [|m L IH]; [reflexivity|]. cbn [filter].
  destruct (String.eqb_spec n m); [subst; exfalso; apply H; left; reflexivity|]. cbn [negb]. f_equal. apply IH. intros I; apply H; right; exact I.
Qed.

Definition is_base (n : string) : Prop := inb n base_names = true /\ String.eqb n ignored = false.
Lemma wp_start n (Qn Qr : abs -> Prop) L e : is_base n -> inb n L = false -> Qn {| on := n :: L; ext := e |} -> wp (start n) Qn Qr {| on := L; ext := e |}.
Proof. intros [B I] N Q. cbn [start wp key_name on ext]. rewrite I. unfold registered_b. rewrite B. auto. Qed.
Lemma wp_end n (Qn Qr : abs -> Prop) L e : is_base n -> inb n L = false -> Qn {| on := L; ext := e |} -> wp (end_ n) Qn Qr {| on := n :: L; ext := e |}.
Proof.
  intros [B I] N Q. cbn [end_ wp key_name on ext]. rewrite I. unfold registered_b. rewrite B.
  split; [reflexivity|]. split; [cbn; rewrite String.eqb_refl; reflexivity|]. rewrite removeb_head by exact N. exact Q.
Qed.

(** start n; body; end n; rest, where the body may return only after ending n itself *)
Lemma bal_bracket n ns c rest nr :
  is_base n -> bal ns c -> ~ In n ns -> (forall L e, (forall m, In m ns -> inb m L = false) -> wp c (fun x => on x = L) (fun _ => False) {| on := L; ext := e |}) ->
  bal nr rest -> bal (n :: ns ++ nr) (Seq (start n) (Seq c (Seq (end_ n) rest))).
Proof.
  intros Bn _ Nn C R L e H. change (wp (start n) (wp (Seq c (Seq (end_ n) rest)) (fun x => on x = L) (fun x => on x = L)) (fun x => on x = L) {| on := L; ext := e |}).
  apply wp_start; [exact Bn|apply H; left; reflexivity|].
  change (wp c (wp (Seq (end_ n) rest) (fun x => on x = L) (fun x => on x = L)) (fun x => on x = L) {| on := n :: L; ext := e |}).
  eapply wp_mono; [| |apply C].
  - intros [l e'] E; cbn [on] in E; subst l. change (wp (end_ n) (wp rest (fun x => on x = L) (fun x => on x = L)) (fun x => on x = L) {| on := n :: L; ext := e' |}).
    apply wp_end; [exact Bn|apply H; left; reflexivity|]. apply R. intros m I. apply H. right. apply in_or_app; auto.
  - intros x [].
  - intros m I. cbn. assert (String.eqb m n = false) as -> by (apply String.eqb_neq; intros ->; contradiction).
    apply H. right. apply in_or_app; auto.
Qed.

(** commands that never return from the enclosing routine *)
Definition nr (names : list string) (c : cmd) : Prop :=
  forall L e, (forall n, In n names -> inb n L = false) -> wp c (fun x => on x = L) (fun _ => False) {| on := L; ext := e |}.
Lemma nr_call n a : bal n a -> nr n (Call a).
Proof. intros A L e H. cbn [wp]. apply A; exact H. Qed.
Lemma nr_skip : nr [] Skip. Proof. intros L e _. reflexivity. Qed.
Lemma nr_bal n a : nr n a -> bal n a.
Proof. intros A L e H. eapply wp_mono; [| |apply (A L e H)]; auto. intros x []. Qed.
Lemma nr_maybe_exit : nr [] (Maybe Exit).
Proof. intros L e _. split; [exact I|reflexivity]. Qed.
Lemma nr_seq n1 n2 a b : nr n1 a -> nr n2 b -> nr (n1 ++ n2) (Seq a b).
Proof.
  intros A B L e H. cbn [wp]. eapply wp_mono; [| |apply A].
  - intros [l e'] E; cbn [on] in E; subst l. apply B. intros n I. apply H, in_or_app; auto.
  - auto.
  - intros n I. apply H, in_or_app; auto.
Qed.
Lemma nr_loop n a : nr n a -> nr n (Loop a).
Proof. intros A L e H. cbn [wp on]. split; [apply A; exact H|reflexivity]. Qed.
Lemma bracket n ns c rest m : is_base n -> nr ns c -> ~ In n ns -> bal m rest ->
  bal (n :: ns ++ m) (Seq (start n) (Seq c (Seq (end_ n) rest))).
Proof. intros. apply bal_bracket; auto. apply nr_bal; auto. Qed.
Lemma bracket_end n ns c : is_base n -> nr ns c -> ~ In n ns -> bal (n :: ns) (Seq (start n) (Seq c (end_ n))).
Proof.
  intros B C N L e H. pose proof (bracket n ns c Skip [] B C N bal_skip L e) as X. rewrite app_nil_r in X. apply (X H).
Qed.

Lemma bal_loop_block n ns c : is_base n -> bal ns c -> ~ In n ns -> bal (n :: ns) (loop_block n c).
Proof.
  intros Bn C Nn L e H. unfold loop_block.
  change (wp (start n) (wp (Seq (Loop (Seq (Maybe (Seq (end_ n) Return)) (Maybe (Call c)))) (end_ n)) (fun x => on x = L) (fun x => on x = L)) (fun x => on x = L) {| on := L; ext := e |}).
  assert (Hn : inb n L = false) by (apply H; left; reflexivity).
  apply wp_start; [exact Bn|exact Hn|]. cbn [wp on ext]. split.
  - cbn [Maybe wp]. split.
    + change (wp (end_ n) (fun x => on x = L) (fun x => on x = L) {| on := n :: L; ext := [] |}). apply wp_end; auto.
    + assert (HL : forall m, In m ns -> inb m (n :: L) = false).
      { intros m I. cbn. assert (String.eqb m n = false) as -> by (apply String.eqb_neq; intros ->; contradiction). apply H; right; exact I. }
      split; [|reflexivity]. apply C; exact HL.
  - change (wp (end_ n) (fun x => on x = L) (fun x => on x = L) {| on := n :: L; ext := [] |}). apply wp_end; auto.
Qed.

(** *** The routines *)
Ltac base := split; reflexivity.
Ltac notin := cbn; intuition discriminate.
Lemma bal_pbb_prepare : bal ["GEN_DISJ_TIME"] pbb_prepare.
Proof.
  unfold pbb_prepare. refine (bal_seq [] _ _ _ (bal_maybe _ _ bal_exit) _).
  intros L e H. cbn [app] in *. assert (Hn : inb "GEN_DISJ_TIME" L = false) by (apply H; left; reflexivity).
  change (wp (start "GEN_DISJ_TIME") (wp (Seq (end_ "GEN_DISJ_TIME") (Seq (Maybe Exit) Return)) (fun x => on x = L) (fun x => on x = L)) (fun x => on x = L) {| on := L; ext := e |}).
  apply wp_start; [base|exact Hn|].
  change (wp (end_ "GEN_DISJ_TIME") (wp (Seq (Maybe Exit) Return) (fun x => on x = L) (fun x => on x = L)) (fun x => on x = L) {| on := "GEN_DISJ_TIME" :: L; ext := e |}).
  apply wp_end; [base|exact Hn|]. cbn. auto.
Qed.
Lemma bal_split_given : bal ["GEN_DISJ_TIME"] split_prepare_given.
Proof. apply (bracket "GEN_DISJ_TIME" [] _ _ []); [base|apply nr_maybe_exit|notin|apply bal_return]. Qed.

Lemma bal_exit_end n rest L e : is_base n -> inb n L = false -> (forall e', wp rest (fun x => on x = L) (fun x => on x = L) {| on := L; ext := e' |}) ->
  wp (Seq (end_ n) rest) (fun x => on x = L) (fun x => on x = L) {| on := n :: L; ext := e |}.
Proof.
  intros B N R. change (wp (end_ n) (wp rest (fun x => on x = L) (fun x => on x = L)) (fun x => on x = L) {| on := n :: L; ext := e |}).
  apply wp_end; auto.
Qed.
Lemma bal_gen_cut : bal ["PRLP_SOLVE_TIME"] gen_cut.
Proof.
  intros L e H. assert (Hn : inb "PRLP_SOLVE_TIME" L = false) by (apply H; left; reflexivity).
  unfold gen_cut.
  match goal with |- wp (Seq ?a ?b) ?q ?r ?x => change (wp a (wp b q r) r x) end.
  apply wp_start; [base|exact Hn|].
  assert (X : forall Q : abs -> Prop, (forall e', Q {| on := L; ext := e' |}) -> forall e', wp (Call exit_gen_cut) Q (fun x => on x = L) {| on := "PRLP_SOLVE_TIME" :: L; ext := e' |}).
  { intros Q HQ e'. change (wp exit_gen_cut Q Q {| on := "PRLP_SOLVE_TIME" :: L; ext := e' |}). unfold exit_gen_cut.
    match goal with |- wp (Seq ?a ?b) ?q ?r ?x => change (wp a (wp b q r) r x) end.
    apply wp_end; [base|exact Hn|]. cbn. auto. }
  assert (Y : forall c, wp c (fun x => on x = L) (fun x => on x = L) {| on := "PRLP_SOLVE_TIME" :: L; ext := e |} ->
              wp (Seq (Maybe (Seq (Call exit_gen_cut) Return)) c) (fun x => on x = L) (fun x => on x = L) {| on := "PRLP_SOLVE_TIME" :: L; ext := e |}).
  { intros c Hc. split; [|exact Hc]. match goal with |- wp (Seq ?a ?b) ?q ?r ?x => change (wp a (wp b q r) r x) end.
    apply X. intros; reflexivity. }
  apply Y, Y, Y. match goal with |- wp (Seq ?a ?b) ?q ?r ?x => change (wp a (wp b q r) r x) end.
  apply X. intros; reflexivity.
Qed.
Lemma bal_prlp_solve : bal ["PRLP_SOLVE_TIME"] prlp_solve.
Proof.
  refine (bal_seq [] _ _ _ (bal_maybe _ _ bal_return) _). refine (bal_seq _ [] _ _ (bal_call _ _ bal_gen_cut) bal_return).
Qed.
Lemma bal_try_one : bal ["PRLP_SOLVE_TIME"] try_one.
Proof. refine (bal_seq _ [] _ _ (bal_call _ _ bal_gen_cut) bal_return). Qed.
Lemma bal_ret_seq n c : bal n c -> bal n (Seq (Maybe Return) c).
Proof. intros H. refine (bal_seq [] _ _ _ (bal_maybe _ _ bal_return) H). Qed.
Lemma bal_exit_seq n c : bal n c -> bal n (Seq (Maybe Exit) c).
Proof. intros H. refine (bal_seq [] _ _ _ (bal_maybe _ _ bal_exit) H). Qed.
Lemma bal_then_return n c : bal n c -> bal n (Seq c Return).
Proof. intros H. rewrite <- (app_nil_r n). apply bal_seq; [exact H|apply bal_return]. Qed.
Lemma bal_same n a b : bal n a -> bal n b -> bal n (Seq a b).
Proof. intros A B. eapply bal_mono; [apply (bal_seq n n); eassumption|]. intros x I. apply in_app_or in I. tauto. Qed.
Lemma bal_find_tight : bal ["PRLP_SOLVE_TIME"] find_tight.
Proof.
  unfold find_tight. apply bal_same; [apply bal_call, bal_try_one|].
  apply bal_ret_seq, bal_ret_seq, bal_ret_seq, bal_then_return, bal_loop, bal_maybe, bal_call, bal_try_one.
Qed.
Lemma bal_iterate : bal ["PRLP_SOLVE_TIME"] iterate_deepest.
Proof.
  unfold iterate_deepest. apply bal_ret_seq, bal_ret_seq, bal_exit_seq. apply bal_same; [apply bal_call, bal_gen_cut|].
  apply bal_ret_seq, bal_ret_seq, bal_then_return, bal_loop, bal_ret_seq, bal_maybe.
  apply bal_same; [apply bal_call, bal_gen_cut|]. eapply bal_mono; [apply bal_maybe, bal_return|intros x []].
Qed.

Definition gen_names : list string :=
  ["PRLP_SOLVE_TIME"; "ALL_ONES_TIME"; "ITER_BILINEAR_TIME"; "DISJ_LB_TIME"; "TIGHT_POINTS_TIME"; "UNIT_VECTORS_TIME"; "TIGHT_RAYS_TIME"; "TIGHT_POINTS2_TIME"; "TIGHT_RAYS2_TIME"].
Ltac inclt := intros ? ?; cbn in *; intuition auto.
Lemma bal_block n c : is_base n -> n <> "PRLP_SOLVE_TIME" -> In n gen_names -> bal ["PRLP_SOLVE_TIME"] c ->
  bal gen_names (Maybe (Seq (start n) (Seq (Call c) (Seq (end_ n) (Maybe Return))))).
Proof.
  intros B N I C. apply bal_maybe. eapply bal_mono; [apply (bracket n ["PRLP_SOLVE_TIME"] _ _ [])|].
  - exact B.
  - apply nr_call; exact C.
  - cbn; intuition congruence.
  - apply bal_maybe, bal_return.
  - intros x [<-|[<-|[]]]; [exact I|left; reflexivity].
Qed.
Lemma bal_lblock n c : is_base n -> n <> "PRLP_SOLVE_TIME" -> In n gen_names -> bal ["PRLP_SOLVE_TIME"] c ->
  bal gen_names (Maybe (loop_block n c)).
Proof.
  intros B N I C. apply bal_maybe. eapply bal_mono; [apply (bal_loop_block n ["PRLP_SOLVE_TIME"])|].
  - exact B.
  - exact C.
  - cbn; intuition congruence.
  - intros x [<-|[<-|[]]]; [exact I|left; reflexivity].
Qed.
Lemma bal_pair n rest : is_base n -> In n gen_names -> bal gen_names rest ->
  bal gen_names (Seq (start n) (Seq (end_ n) rest)).
Proof.
  intros B I R. eapply bal_mono; [exact (bracket n [] Skip rest gen_names B nr_skip ltac:(cbn; tauto) R)|].
  intros x [<-|J]; auto.
Qed.
Ltac tb := first [base | discriminate | (cbn; tauto) | exact bal_try_one | exact bal_find_tight | exact bal_iterate].
Lemma bal_target : bal gen_names target_cuts.
Proof.
  unfold target_cuts. apply bal_ret_seq.
  apply bal_same; [apply bal_block; tb|]. apply bal_same; [apply bal_block; tb|].
  apply bal_pair; [base|cbn; tauto|].
  apply bal_same; [apply bal_block; tb|].
  do 4 (apply bal_same; [apply bal_lblock; tb|apply bal_ret_seq]).
  apply bal_same; [apply bal_lblock; tb|]. eapply bal_mono; [apply bal_return|intros x []].
Qed.

Lemma bal_prlp_setup : bal ["PRLP_SETUP_TIME"; "DUMMY_OBJ_TIME"] prlp_setup.
Proof.
  unfold prlp_setup.
  change (bal ["PRLP_SETUP_TIME"; "DUMMY_OBJ_TIME"] (Seq (start "PRLP_SETUP_TIME") (Seq (Maybe Exit) (Seq (end_ "PRLP_SETUP_TIME")
            (Seq (Maybe Return) (Seq (start "DUMMY_OBJ_TIME") (Seq (end_ "DUMMY_OBJ_TIME") Return))))))).
  apply (bracket "PRLP_SETUP_TIME" [] _ _ ["DUMMY_OBJ_TIME"]); [base|apply nr_maybe_exit|cbn; tauto|].
  apply bal_ret_seq. exact (bracket "DUMMY_OBJ_TIME" [] Skip Return [] ltac:(base) nr_skip ltac:(cbn; tauto) bal_return).
Qed.

Definition obj_names : list string := ["GEN_CUTS_TIME"; "PRLP_SETUP_TIME"; "DUMMY_OBJ_TIME"] ++ gen_names.
Lemma bal_try_objectives : bal obj_names try_objectives.
Proof.
  unfold try_objectives. do 3 apply bal_ret_seq. apply bal_same.
  - apply bal_maybe. apply bal_same; [eapply bal_mono; [apply bal_call, bal_prlp_setup|inclt]|].
    apply bal_same; [eapply bal_mono; [apply bal_loop, bal_call, bal_prlp_solve|inclt]|].
    apply bal_maybe. eapply bal_mono; [apply (bracket_end "GEN_CUTS_TIME" gen_names); [base|apply nr_call, bal_target|notin]|inclt].
  - apply bal_exit_seq, bal_exit_seq. eapply bal_mono; [apply bal_return|intros x []].
Qed.

Definition TT : list string := ["TOTAL_TIME"].
Lemma T_step i : forall (Q R : abs -> Prop) e,
  (forall e', Q {| on := TT; ext := e' |}) ->
  wp (TC (Register (time_T1 (to_string i)) 0);; TC (Register (time_T2 (to_string i)) 0);;
       Maybe (start (time_T1 "TOTAL");; start (time_T1 (to_string i));;
              Maybe Exit;;
              end_ (time_T1 "TOTAL");; end_ (time_T1 (to_string i))))%cmd Q R {| on := TT; ext := e |}.
Proof.
  intros Q R e H.
  change (inb (time_T1 (to_string i)) TT = false /\ inb (time_T1 (to_string i)) base_names = false /\ String.eqb (time_T1 (to_string i)) ignored = false /\
    wp (TC (Register (time_T2 (to_string i)) 0);; Maybe (start (time_T1 "TOTAL");; start (time_T1 (to_string i));; Maybe Exit;; end_ (time_T1 "TOTAL");; end_ (time_T1 (to_string i))))%cmd Q R
      {| on := TT; ext := time_T1 (to_string i) :: e |}).
  split; [reflexivity|]. split; [reflexivity|]. split; [apply T1_not_ignored|].
  change (inb (time_T2 (to_string i)) TT = false /\ inb (time_T2 (to_string i)) base_names = false /\ String.eqb (time_T2 (to_string i)) ignored = false /\
    wp (Maybe (start (time_T1 "TOTAL");; start (time_T1 (to_string i));; Maybe Exit;; end_ (time_T1 "TOTAL");; end_ (time_T1 (to_string i))))%cmd Q R
      {| on := TT; ext := time_T2 (to_string i) :: time_T1 (to_string i) :: e |}).
  split; [reflexivity|]. split; [reflexivity|]. split; [reflexivity|].
  set (e2 := time_T2 (to_string i) :: time_T1 (to_string i) :: e).
  split; [|apply H].
  assert (RG : registered_b {| on := TT; ext := e2 |} (time_T1 (to_string i)) = true).
  { unfold registered_b. apply orb_true_iff. right. apply inb_in. right. left. reflexivity. }
  change (wp (start (time_T1 (to_string i));; Maybe Exit;; end_ (time_T1 "TOTAL");; end_ (time_T1 (to_string i)))%cmd Q R {| on := TT; ext := e2 |}).
  change (wp (start (time_T1 (to_string i))) (wp (Maybe Exit;; end_ (time_T1 "TOTAL");; end_ (time_T1 (to_string i)))%cmd Q R) R {| on := TT; ext := e2 |}).
  unfold start at 1. cbn [wp key_name]. rewrite T1_not_ignored. split; [exact RG|]. split; [reflexivity|].
  cbn [Maybe wp on ext]. split; [exact I|].
  unfold end_ at 1. cbn [wp key_name on ext]. change (String.eqb (time_T1 "TOTAL") ignored) with true. cbv iota.
  unfold end_. cbn [wp key_name on ext]. rewrite T1_not_ignored.
  split; [exact RG|]. split; [cbn [inb existsb]; unfold inb; cbn [existsb]; rewrite String.eqb_refl; reflexivity|].
  rewrite removeb_head by reflexivity. apply H.
Qed.
Lemma setup_constraints_TT e : wp setup_constraints (fun x => on x = TT) (fun x => on x = TT) {| on := TT; ext := e |}.
Proof.
  unfold setup_constraints. change (wp (Loop (Maybe (Any (fun i =>
       TC (Register (time_T1 (to_string i)) 0);; TC (Register (time_T2 (to_string i)) 0);;
       Maybe (start (time_T1 "TOTAL");; start (time_T1 (to_string i));;
              Maybe Exit;;
              end_ (time_T1 "TOTAL");; end_ (time_T1 (to_string i)))))))%cmd (fun x => on x = TT) (fun x => on x = TT) {| on := TT; ext := e |}).
  split; [|reflexivity]. split; [|reflexivity]. intros i. apply T_step. reflexivity.
Qed.

(** a command at the level of generateCuts' body while TOTAL_TIME is on: it may return after
    finish, or go on with TOTAL_TIME on *)
Definition body (c : cmd) : Prop :=
  forall e, wp c (fun x => on x = TT) (fun x => on x = []) {| on := TT; ext := e |}.
Lemma body_seq a b : body a -> body b -> body (a;; b)%cmd.
Proof.
  intros A B e. change (wp a (wp b (fun x => on x = TT) (fun x => on x = [])) (fun x => on x = []) {| on := TT; ext := e |}).
  eapply wp_mono; [| |apply A]; [|auto]. intros [l e'] E; cbn [on] in E; subst l. apply B.
Qed.
Lemma body_alt a b : body a -> body b -> body (Alt a b).
Proof. intros A B e. split; [apply A|apply B]. Qed.
Lemma body_skip : body Skip. Proof. intros e. reflexivity. Qed.
Lemma body_maybe a : body a -> body (Maybe a).
Proof. intros A. apply body_alt; [exact A|apply body_skip]. Qed.
Lemma body_finish : body (Maybe (finish;; Return))%cmd.
Proof.
  apply body_maybe. intros e. change (wp (end_ "TOTAL_TIME") (fun x => on x = []) (fun x => on x = []) {| on := ["TOTAL_TIME"]; ext := e |}).
  apply wp_end; [base|reflexivity|reflexivity].
Qed.
Lemma body_exit : body (Maybe Exit).
Proof. intros e. split; [exact I|reflexivity]. Qed.
Lemma body_call ns c : bal ns c -> inb "TOTAL_TIME" ns = false -> body (Call c).
Proof.
  intros B N e. change (wp c (fun x => on x = TT) (fun x => on x = TT) {| on := TT; ext := e |}). apply B.
  intros n I. apply inb_nin. intros [<-|[]]. apply inb_nin in N. contradiction.
Qed.
Lemma body_loop c : body c -> body (Loop c).
Proof. intros C e. split; [apply C|reflexivity]. Qed.

Lemma generate_cuts_wp e :
  wp (Call generate_cuts) (fun x => on x = []) (fun x => on x = []) {| on := []; ext := e |}.
Proof.
  change (wp generate_cuts (fun x => on x = []) (fun x => on x = []) {| on := []; ext := e |}).
  unfold generate_cuts.
  match goal with |- wp (Seq ?a ?b) ?q ?r ?x => change (wp a (wp b q r) r x) end.
  apply wp_start; [base|reflexivity|]. fold TT.
  assert (X : forall a b (Q : abs -> Prop), body a -> (forall e', wp b Q (fun x => on x = []) {| on := TT; ext := e' |}) ->
              forall e', wp (Seq a b) Q (fun x => on x = []) {| on := TT; ext := e' |}).
  { intros a b Q A B e'. change (wp a (wp b Q (fun x => on x = [])) (fun x => on x = []) {| on := TT; ext := e' |}).
    eapply wp_mono; [| |apply A]; [|auto]. intros [l e2] E; cbn [on] in E; subst l. apply B. }
  do 2 (apply X; [apply body_finish|intros ?]). apply X; [apply body_exit|intros ?]. apply X; [apply body_finish|intros ?].
  apply X; [apply body_exit|intros ?]. apply X; [apply body_finish|intros ?]. apply X; [apply body_exit|intros ?].
  apply X; [|intros ?].
  { apply body_maybe, body_seq; [|apply body_finish]. unfold prepare.
    apply body_alt; [apply (body_call _ _ bal_pbb_prepare eq_refl)|].
    apply body_alt; apply body_loop; [apply (body_call _ _ bal_pbb_prepare eq_refl)|apply (body_call _ _ bal_split_given eq_refl)]. }
  apply X; [apply body_exit|intros ?]. apply X; [apply body_finish|intros ?].
  apply X; [|intros ?].
  { apply body_loop, body_maybe, body_seq.
    - intros ee. apply setup_constraints_TT.
    - apply body_maybe. apply (body_call _ _ bal_try_objectives eq_refl). }
  match goal with |- wp _ _ _ {| on := _; ext := ?ee |} => change (wp (end_ "TOTAL_TIME") (fun x => on x = []) (fun x => on x = []) {| on := ["TOTAL_TIME"]; ext := ee |}) end.
  apply wp_end; [base|reflexivity|reflexivity].
Qed.
