(** Lemmas on the heap of bases for C83. *)
From Verif Require Import Spec.CopySpec.
From Coq Require Import Permutation.

Definition olist {A} (o : option A) : list A := match o with Some a => [a] | None => [] end.
Definition bases (ts : list term) : list nat := flat_map (fun t => olist (t_basis t)) ts.
Definition live (h : heap) (a : nat) : Prop := cell h a <> None.

Lemma live_lt h a : live h a -> (a < length h)%nat.
Proof. unfold live, cell. intros H. destruct (nth_error h a) eqn:E; [|congruence]. apply nth_error_Some. congruence. Qed.
Lemma cell_app h x a : (a < length h)%nat -> cell (h ++ x) a = cell h a.
Proof. intros. unfold cell. now rewrite nth_error_app1. Qed.
Lemma cell_new h b : cell (h ++ [b]) (length h) = b.
Proof. unfold cell. rewrite nth_error_app2 by lia. now rewrite Nat.sub_diag. Qed.
Lemma cell_none h a : (length h <= a)%nat -> cell h a = None.
Proof. intros. unfold cell. rewrite (proj2 (nth_error_None h a)); auto. Qed.
Lemma kill_len {A} (h : list (option A)) a : length (kill h a) = length h.
Proof. revert a. induction h; intros [|a0]; cbn; auto. Qed.
Lemma nth_kill {A} (h : list (option A)) a b : nth_error (kill h a) b = if Nat.eqb a b then (match nth_error h b with Some _ => Some None | None => None end) else nth_error h b.
Proof.
  revert a b. induction h as [|c r IH]; intros a b.
  - cbn [kill]. destruct b; cbn; destruct (Nat.eqb a _); reflexivity.
  - destruct a as [|a]; destruct b as [|b]; cbn [kill nth_error Nat.eqb]; auto; try apply IH.
Qed.
Lemma cell_kill h a b : cell (kill h a) b = if Nat.eqb a b then None else cell h b.
Proof. unfold cell. rewrite nth_kill. destruct (Nat.eqb a b); auto. destruct (nth_error h b); auto. Qed.
Lemma put_len {A} (h : list (option A)) i a : length (put h i a) = length h.
Proof. revert i. induction h; intros [|i]; cbn; auto. Qed.
Lemma nth_put {A} (h : list (option A)) i a b : nth_error (put h i a) b = if Nat.eqb i b then (match nth_error h b with Some _ => Some (Some a) | None => None end) else nth_error h b.
Proof.
  revert i b. induction h as [|c r IH]; intros i b.
  - cbn [put]. destruct b; cbn; destruct (Nat.eqb i _); reflexivity.
  - destruct i as [|i]; destruct b as [|b]; cbn [put nth_error Nat.eqb]; auto; try apply IH.
Qed.

(** From heap [h], owning [O], to [h'], owning [O']; everything else is left alone. *)
Definition tr (h : heap) (O : list nat) (h' : heap) (O' : list nat) : Prop :=
  (length h <= length h')%nat /\ NoDup O' /\ (forall a, In a O' -> live h' a /\ (In a O \/ (length h <= a)%nat)) /\
  (forall a, (a < length h)%nat -> ~ In a O -> cell h' a = cell h a) /\
  (forall a, live h' a -> In a O' \/ ((a < length h)%nat /\ ~ In a O)).
Lemma tr_refl h O : NoDup O -> (forall a, In a O -> live h a) -> tr h O h O.
Proof.
  intros N L. split; [lia|]. split; [exact N|]. split; [intros a H; split; auto|]. split; [auto|].
  intros a H. destruct (in_dec Nat.eq_dec a O); [auto|right]. split; [now apply live_lt|auto].
Qed.
Lemma tr_trans h O h1 O1 h2 O2 : tr h O h1 O1 -> tr h1 O1 h2 O2 -> tr h O h2 O2.
Proof.
  intros (A1 & A2 & A3 & A4 & A5) (B1 & B2 & B3 & B4 & B5). split; [lia|]. split; [exact B2|]. split; [|split].
  - intros a H. destruct (B3 a H) as [L D]. split; [exact L|]. destruct D as [D|D]; [|right; lia]. exact (proj2 (A3 a D)).
  - intros a H N. rewrite B4; [auto|lia|]. intros H1. destruct (A3 a H1) as [_ [X|X]]; [auto|lia].
  - intros a H. destruct (B5 a H) as [|[X Y]]; [auto|]. assert (L1 : live h1 a). { unfold live in *. rewrite B4 in H; auto. }
    destruct (A5 a L1) as [Z|Z]; [contradiction|auto].
Qed.
Lemma nodup_app {A} (a b : list A) : NoDup (a ++ b) <-> NoDup a /\ NoDup b /\ forall x, In x a -> ~ In x b.
Proof.
  induction a as [|x a IH]; cbn [app].
  - split; [intros H; split; [constructor|split; [exact H|intros ? []]]|intros H; exact (proj1 (proj2 H))].
  - rewrite !NoDup_cons_iff, in_app_iff, IH. split.
    + intros (A1 & A2 & A3 & A4). split; [split; [|exact A2]|split; [exact A3|]]; [tauto|]. intros y [<-|Y]; [tauto|exact (A4 y Y)].
    + intros ((A1 & A2) & A3 & A4). split; [|split; [exact A2|split; [exact A3|]]]; [|intros y Y; apply A4; now right].
      intros [X|X]; [tauto|]. exact (A4 x (or_introl eq_refl) X).
Qed.
Lemma tr_frame h O h' O' F : tr h O h' O' -> NoDup F -> (forall a, In a F -> live h a /\ ~ In a O) -> tr h (O ++ F) h' (O' ++ F).
Proof.
  intros (A1 & A2 & A3 & A4 & A5) N L. split; [exact A1|]. split; [|split; [|split]].
  - apply nodup_app. split; [exact A2|split; [exact N|]]. intros a H K. destruct (L a K) as [X Y]. destruct (A3 a H) as [_ [Z|Z]]; [tauto|]. apply live_lt in X. lia.
  - intros a H. apply in_app_iff in H. destruct H as [H|H].
    + destruct (A3 a H) as [X Y]. split; [exact X|]. rewrite in_app_iff. tauto.
    + destruct (L a H) as [X Y]. split; [|rewrite in_app_iff; auto]. unfold live. rewrite A4; auto. now apply live_lt.
  - intros a H X. rewrite in_app_iff in X. apply A4; tauto.
  - intros a H. rewrite !in_app_iff. destruct (A5 a H) as [X|[X Y]]; [auto|]. destruct (in_dec Nat.eq_dec a F); tauto.
Qed.

Lemma tr_perm h O h' O' P P' : (forall a, In a O <-> In a P) -> (forall a, In a O' <-> In a P') -> NoDup P' -> tr h O h' O' -> tr h P h' P'.
Proof.
  intros E E' N (A1 & A2 & A3 & A4 & A5). split; [exact A1|]. split; [exact N|]. split; [|split].
  - intros a H. rewrite <- E' in H. rewrite <- E. auto.
  - intros a H K. rewrite <- E in K. auto.
  - intros a H. rewrite <- E, <- E'. auto.
Qed.
(** What is elsewhere is still there. *)
Lemma tr_keep h O h' O' a : tr h O h' O' -> live h a -> ~ In a O -> cell h' a = cell h a /\ live h' a /\ ~ In a O'.
Proof.
  intros (A1 & A2 & A3 & A4 & A5) L N. assert (Z := live_lt _ _ L). assert (E := A4 a Z N). split; [exact E|]. split; [unfold live; now rewrite E|].
  intros H. destruct (A3 a H) as [_ [X|X]]; [tauto|lia].
Qed.
Definition away (h : heap) (O : list nat) (ts : list term) : Prop := forall a, In a (bases ts) -> live h a /\ ~ In a O.
Lemma away_keep h O h' O' ts : tr h O h' O' -> away h O ts -> away h' O' ts.
Proof. intros T A a H. destruct (A a H) as [L N]. destruct (tr_keep _ _ _ _ _ T L N) as (_ & X & Y). auto. Qed.
Lemma view_keep h O h' O' ts : tr h O h' O' -> away h O ts -> map (view_term h') ts = map (view_term h) ts.
Proof.
  intros T A. apply map_ext_in. intros t Ht. unfold view_term. destruct (t_basis t) as [a|] eqn:E; [|reflexivity]. f_equal.
  assert (In a (bases ts)). { apply in_flat_map. exists t. split; [exact Ht|]. rewrite E. now left. }
  destruct (A a H) as [L N]. exact (proj1 (tr_keep _ _ _ _ _ T L N)).
Qed.
Lemma one_eq {A} (x y : A) : [x] = [y] -> x = y.
Proof. congruence. Qed.
Lemma away_nil h O : away h O [].
Proof. intros a []. Qed.
Lemma bases_cons t r : bases (t :: r) = olist (t_basis t) ++ bases r.
Proof. reflexivity. Qed.
Lemma bases_app a b : bases (a ++ b) = bases a ++ bases b.
Proof. unfold bases. now rewrite flat_map_app. Qed.
Lemma away_cons h O t r : away h O (t :: r) <-> away h O [t] /\ away h O r.
Proof.
  unfold away. rewrite bases_cons. split.
  - intros H. split; intros a K; apply H; apply in_app_iff; [left|right]; auto. cbn in K. now rewrite app_nil_r in K.
  - intros [H K] a L. apply in_app_iff in L. destruct L as [L|L]; [apply H; cbn; now rewrite app_nil_r|apply K, L].
Qed.
Lemma away_less h O O2 ts : (forall a, In a O2 -> In a O) -> away h O ts -> away h O2 ts.
Proof. intros S A a H. destruct (A a H) as [L N]. auto. Qed.

(** ** One term *)
Lemma del_basis_ok h b : (forall a, In a (olist b) -> live h a) -> exists h', del_basis b h = Some (h', tt) /\ tr h (olist b) h' [].
Proof.
  intros L. unfold del_basis. destruct b as [a|]; cbn [olist] in *.
  - assert (Z := L a (or_introl eq_refl)). unfold live in Z. destruct (cell h a) eqn:E; [|congruence]. exists (kill h a). split; [reflexivity|].
    split; [rewrite kill_len; lia|]. split; [constructor|]. split; [intros ? []|]. split.
    + intros x H N. rewrite cell_kill. destruct (Nat.eqb_spec a x); [subst; cbn in N; tauto|reflexivity].
    + intros x H. right. unfold live in H. rewrite cell_kill in H. destruct (Nat.eqb_spec a x); [congruence|]. split; [now apply live_lt|]. cbn. intros [X|[]]. congruence.
  - exists h. split; [reflexivity|]. apply tr_refl; [constructor|intros ? []].
Qed.
Lemma clone_basis_ok h b : (forall a, In a (olist b) -> live h a) ->
  exists h' b', clone_basis b h = Some (h', b') /\ tr h [] h' (olist b') /\ (match b' with Some x => cell h' x | None => None end) = (match b with Some x => cell h x | None => None end).
Proof.
  intros L. unfold clone_basis. destruct b as [a|]; cbn [olist] in *.
  - assert (Z := L a (or_introl eq_refl)). unfold live in Z. destruct (cell h a) eqn:E; [|congruence]. exists (h ++ [Some b]), (Some (length h)).
    split; [reflexivity|]. cbn [olist]. split; [|apply cell_new].
    split; [rewrite app_length; lia|]. split; [constructor; [intros []|constructor]|]. split.
    + intros x [<-|[]]. split; [unfold live; rewrite cell_new; discriminate|right; lia].
    + split; [intros x H N; now apply cell_app|]. intros x H. destruct (Nat.eq_dec (length h) x); [left; now left|right]. split; [|intros []].
      apply live_lt in H. rewrite app_length in H. cbn in H. lia.
  - exists h, None. split; [reflexivity|]. split; [|reflexivity]. apply tr_refl; [constructor|intros ? []].
Qed.
Lemma bases1 t : bases [t] = olist (t_basis t).
Proof. unfold bases. cbn [flat_map]. apply app_nil_r. Qed.
Lemma term_clear_ok h t : (forall a, In a (bases [t]) -> live h a) ->
  exists h', term_clear t h = Some (h', {| t_plain := t_plain t; t_basis := None |}) /\ tr h (bases [t]) h' [].
Proof.
  rewrite bases1. intros L. destruct (del_basis_ok h _ L) as (h' & E & T). exists h'. split; [|exact T]. unfold term_clear, bind. rewrite E. reflexivity.
Qed.
Lemma term_destroy_ok h t : (forall a, In a (bases [t]) -> live h a) -> exists h', term_destroy t h = Some (h', tt) /\ tr h (bases [t]) h' [].
Proof. intros L. destruct (term_clear_ok h t L) as (h' & E & T). exists h'. split; [|exact T]. unfold term_destroy, bind. rewrite E. reflexivity. Qed.
Lemma term_initialize_ok h t s : (forall a, In a (bases [t]) -> live h a) -> away h (bases [t]) [s] ->
  exists h' r, term_initialize t (Some s) h = Some (h', r) /\ tr h (bases [t]) h' (bases [r]) /\ view_term h' r = view_term h s.
Proof.
  intros L A. rewrite bases1 in L. destruct (del_basis_ok h _ L) as (h1 & E1 & T1). rewrite <- bases1 in T1.
  assert (A1 := away_keep _ _ _ _ _ T1 A). assert (L1 : forall a, In a (olist (t_basis s)) -> live h1 a). { intros a H. rewrite <- bases1 in H. exact (proj1 (A1 a H)). }
  destruct (clone_basis_ok h1 _ L1) as (h2 & b & E2 & T2 & V). exists h2, {| t_plain := t_plain s; t_basis := b |}.
  split; [unfold term_initialize, bind; rewrite E1, E2; reflexivity|]. rewrite (bases1 {| t_plain := t_plain s; t_basis := b |}). cbn [t_basis]. split; [exact (tr_trans _ _ _ _ _ _ T1 T2)|].
  assert (V1 := view_keep _ _ _ _ _ T1 A). apply one_eq in V1. unfold view_term in *. cbn [t_plain t_basis]. now rewrite V, V1.
Qed.
Lemma term_copy_ok h s : away h [] [s] -> exists h' r, term_copy s h = Some (h', r) /\ tr h [] h' (bases [r]) /\ view_term h' r = view_term h s.
Proof. intros A. apply (term_initialize_ok h {| t_plain := tplain_new; t_basis := None |} s); [intros ? []|exact A]. Qed.

(** ** Several terms *)
Lemma tr_nil_app h O h1 P h2 P2 : tr h O h1 P -> tr h1 [] h2 P2 -> tr h O h2 (P ++ P2).
Proof.
  intros T1 T2. apply (tr_trans _ _ _ _ _ _ T1). destruct T1 as (_ & N & L & _ & _).
  assert (X : tr h1 ([] ++ P) h2 (P2 ++ P)) by (apply tr_frame; [exact T2|exact N|intros a H; split; [exact (proj1 (L a H))|intros []]]). cbn [app] in X.
  refine (tr_perm _ _ _ _ _ _ (fun a => iff_refl _) _ _ X); [intros a; rewrite !in_app_iff; tauto|].
  destruct X as (_ & ND & _). apply nodup_app in ND. apply nodup_app. destruct ND as (U & V & W). split; [exact V|split; [exact U|]]. intros a H K. exact (W a K H).
Qed.
Lemma tr_drop h O F h1 : tr h O h1 [] -> NoDup F -> (forall a, In a F -> live h a /\ ~ In a O) -> tr h (O ++ F) h1 F.
Proof. intros T N L. exact (tr_frame _ _ _ _ F T N L). Qed.
Lemma copy_all_ok ts : forall h, away h [] ts ->
  exists h' r, copy_all ts h = Some (h', r) /\ tr h [] h' (bases r) /\ map (view_term h') r = map (view_term h) ts.
Proof.
  induction ts as [|t r IH]; intros h A.
  - exists h, []. split; [reflexivity|]. split; [|reflexivity]. apply tr_refl; [constructor|intros ? []].
  - apply away_cons in A. destruct A as [A1 A2]. destruct (term_copy_ok h t A1) as (h1 & t' & E1 & T1 & V1).
    assert (A3 : away h1 [] r). { apply (away_less _ (bases [t'])); [intros ? []|]. exact (away_keep _ _ _ _ _ T1 A2). }
    destruct (IH h1 A3) as (h2 & r' & E2 & T2 & V2). exists h2, (t' :: r'). split; [cbn [copy_all]; unfold bind; rewrite E1, E2; reflexivity|]. split.
    + rewrite bases_cons, <- bases1. exact (tr_nil_app _ _ _ _ _ _ T1 T2).
    + cbn [map]. rewrite V2, <- V1. assert (X := view_keep _ _ _ _ r T1 A2). rewrite X. f_equal.
      assert (Y : away h1 [] [t']). { intros a H. split; [|intros []]. destruct T1 as (_ & _ & L & _). exact (proj1 (L a H)). }
      assert (W := view_keep _ _ _ _ _ T2 Y). exact (one_eq _ _ W).
Qed.
Definition good (h : heap) (ts : list term) : Prop := NoDup (bases ts) /\ forall a, In a (bases ts) -> live h a.
Lemma good_cons h t r : good h (t :: r) -> good h [t] /\ good h r /\ away h (bases [t]) r.
Proof.
  intros [N L]. rewrite bases_cons, <- bases1 in N, L. apply nodup_app in N. destruct N as (N1 & N2 & N3).
  split; [split; [exact N1|intros a H; apply L, in_app_iff; auto]|]. split; [split; [exact N2|intros a H; apply L, in_app_iff; auto]|].
  intros a H. split; [apply L, in_app_iff; auto|]. intros K. exact (N3 a K H).
Qed.
Lemma good_keep h O h' O' ts : tr h O h' O' -> good h ts -> away h O ts -> good h' ts /\ away h' O' ts.
Proof. intros T [N L] A. assert (B := away_keep _ _ _ _ _ T A). split; [split; [exact N|]|exact B]. intros a H. exact (proj1 (B a H)). Qed.
Lemma tr_first h P h1 P1 ts : tr h P h1 P1 -> good h ts -> away h P ts -> tr h (P ++ bases ts) h1 (P1 ++ bases ts).
Proof. intros T [N L] A. apply tr_frame; auto. Qed.
Lemma clear_all_ok ts : forall h, good h ts ->
  exists h' r, clear_all ts h = Some (h', r) /\ tr h (bases ts) h' [] /\ bases r = [].
Proof.
  induction ts as [|t r IH]; intros h G.
  - exists h, []. split; [reflexivity|]. split; [|reflexivity]. apply tr_refl; [constructor|intros ? []].
  - destruct (good_cons _ _ _ G) as (G1 & G2 & A). destruct (term_clear_ok h t (proj2 G1)) as (h1 & E1 & T1).
    destruct (good_keep _ _ _ _ _ T1 G2 A) as [G3 _]. destruct (IH h1 G3) as (h2 & r' & E2 & T2 & B).
    exists h2, ({| t_plain := t_plain t; t_basis := None |} :: r'). split; [cbn [clear_all]; unfold bind; rewrite E1, E2; reflexivity|]. split; [|rewrite bases_cons, B; reflexivity].
    rewrite bases_cons, <- bases1. exact (tr_trans _ _ _ _ _ _ (tr_first _ _ _ _ _ T1 G2 A) T2).
Qed.
Lemma destroy_all_ok ts : forall h, good h ts -> exists h', destroy_all ts h = Some (h', tt) /\ tr h (bases ts) h' [].
Proof.
  induction ts as [|t r IH]; intros h G.
  - exists h. split; [reflexivity|]. apply tr_refl; [constructor|intros ? []].
  - destruct (good_cons _ _ _ G) as (G1 & G2 & A). destruct (term_destroy_ok h t (proj2 G1)) as (h1 & E1 & T1).
    destruct (good_keep _ _ _ _ _ T1 G2 A) as [G3 _]. destruct (IH h1 G3) as (h2 & E2 & T2).
    exists h2. split; [cbn [destroy_all]; unfold bind; rewrite E1, E2; reflexivity|].
    rewrite bases_cons, <- bases1. exact (tr_trans _ _ _ _ _ _ (tr_first _ _ _ _ _ T1 G2 A) T2).
Qed.
Lemma no_bases_destroy ts : bases ts = [] -> forall h, destroy_all ts h = Some (h, tt).
Proof.
  induction ts as [|t r IH]; intros B h; [reflexivity|]. rewrite bases_cons in B. apply app_eq_nil in B. destruct B as [B1 B2].
  cbn [destroy_all]. unfold bind, term_destroy, term_clear, bind, del_basis. destruct (t_basis t); [discriminate B1|]. cbn. apply IH, B2.
Qed.
(** Assigning a vector whose elements have been cleared. *)
Lemma assign_fit_ok this : forall src h, bases this = [] -> away h [] src ->
  exists h' r, assign_fit this src h = Some (h', r) /\ tr h [] h' (bases r) /\ map (view_term h') r = map (view_term h) src.
Proof.
  induction this as [|t q IH]; intros src h B A.
  - cbn [assign_fit]. apply copy_all_ok, A.
  - destruct src as [|s r].
    + exists h, []. split; [cbn [assign_fit]; unfold bind; rewrite no_bases_destroy by exact B; reflexivity|]. split; [|reflexivity]. apply tr_refl; [constructor|intros ? []].
    + rewrite bases_cons in B. apply app_eq_nil in B. destruct B as [B1 B2]. apply away_cons in A. destruct A as [A1 A2]. rewrite <- bases1 in B1.
      destruct (term_initialize_ok h t s) as (h1 & t' & E1 & T1 & V1); [rewrite B1; intros ? []|rewrite B1; exact A1|]. rewrite B1 in T1.
      assert (A3 : away h1 [] r). { apply (away_less _ (bases [t'])); [intros ? []|]. exact (away_keep _ _ _ _ _ T1 A2). }
      destruct (IH r h1 B2 A3) as (h2 & r' & E2 & T2 & V2). exists h2, (t' :: r'). split; [cbn [assign_fit]; unfold bind; rewrite E1, E2; reflexivity|]. split.
      * rewrite bases_cons, <- bases1. exact (tr_nil_app _ _ _ _ _ _ T1 T2).
      * cbn [map]. rewrite V2, <- V1. rewrite (view_keep _ _ _ _ r T1 A2). f_equal.
        assert (Y : away h1 [] [t']). { intros a H. split; [|intros []]. destruct T1 as (_ & _ & L & _). exact (proj1 (L a H)). }
        assert (W := view_keep _ _ _ _ _ T2 Y). exact (one_eq _ _ W).
Qed.
Lemma vec_assign_ok fits this src h : bases this = [] -> away h [] src ->
  exists h' r, vec_assign fits this src h = Some (h', r) /\ tr h [] h' (bases r) /\ map (view_term h') r = map (view_term h) src.
Proof.
  intros B A. destruct fits; [now apply assign_fit_ok|]. destruct (copy_all_ok src h A) as (h' & r & E & T & V). exists h', r.
  split; [unfold vec_assign, bind; rewrite E, no_bases_destroy by exact B; reflexivity|auto].
Qed.
Lemma vec_push_ok grow this t h : good h this -> away h (bases this) [t] ->
  exists h' r, vec_push grow this t h = Some (h', r) /\ tr h (bases this) h' (bases r) /\ map (view_term h') r = map (view_term h) (this ++ [t]).
Proof.
  intros G A. destruct (term_copy_ok h t) as (h1 & t' & E1 & T1 & V1); [apply (away_less _ (bases this)); [intros ? []|exact A]|].
  assert (A0 : away h [] this). { intros a H. split; [exact (proj2 G a H)|intros []]. }
  destruct (good_keep _ _ _ _ _ T1 G A0) as [G1 A1].
  assert (Vt : view_term h1 t' = view_term h t) by exact V1.
  destruct grow.
  - assert (A2 : away h1 [] this) by (apply (away_less _ (bases [t'])); [intros ? []|exact A1]).
    destruct (copy_all_ok this h1 A2) as (h2 & n & E2 & T2 & V2).
    destruct (good_keep _ _ _ _ _ T2 G1 A2) as [G2 A3].
    destruct (destroy_all_ok this h2 G2) as (h3 & E3 & T3). exists h3, (n ++ [t']).
    split; [unfold vec_push, bind; rewrite E1, E2, E3; reflexivity|].
    (* h -> h1 owning t'; -> h2 owning t' and n; -> h3 without this *)
    assert (T12 : tr h [] h2 (bases [t'] ++ bases n)) by exact (tr_nil_app _ _ _ _ _ _ T1 T2).
    assert (T12' := tr_first _ _ _ _ this T12 G A0). cbn [app] in T12'.
    destruct T12' as (l1 & l2 & l3 & l4 & l5). assert (T12' : tr h (bases this) h2 ((bases [t'] ++ bases n) ++ bases this)) by (split; auto).
    apply nodup_app in l2. destruct l2 as (m1 & m2 & m3).
    assert (T3' : tr h2 (bases this ++ (bases [t'] ++ bases n)) h3 (bases [t'] ++ bases n)).
    { apply tr_drop; [exact T3|exact m1|]. intros a H. split; [exact (proj1 (l3 a (proj2 (in_app_iff _ _ _) (or_introl H))))|exact (m3 a H)]. }
    assert (T3'' : tr h2 ((bases [t'] ++ bases n) ++ bases this) h3 (bases n ++ bases [t'])).
    { refine (tr_perm _ _ _ _ _ _ _ _ _ T3'); [intros a; rewrite !in_app_iff; tauto|intros a; rewrite !in_app_iff; tauto|].
      apply nodup_app in m1. apply nodup_app. destruct m1 as (U & V & W). split; [exact V|split; [exact U|]]. intros a H K. exact (W a K H). }
    split; [rewrite bases_app; exact (tr_trans _ _ _ _ _ _ T12' T3'')|].
    assert (AW : away h2 (bases this) (n ++ [t'])).
    { intros a H. rewrite bases_app in H. assert (HH : In a (bases [t'] ++ bases n)) by (rewrite in_app_iff in *; tauto).
      split; [exact (proj1 (l3 a (proj2 (in_app_iff _ _ _) (or_introl HH))))|exact (m3 a HH)]. }
    rewrite (view_keep _ _ _ _ _ T3 AW). rewrite !map_app. rewrite V2. f_equal.
    + exact (view_keep _ _ _ _ _ T1 A0).
    + cbn [map]. f_equal. rewrite <- Vt. assert (Y : away h1 [] [t']). { intros a H. split; [|intros []]. destruct T1 as (_ & _ & L & _). exact (proj1 (L a H)). }
      assert (W := view_keep _ _ _ _ _ T2 Y). exact (one_eq _ _ W).
  - exists h1, (this ++ [t']). split; [unfold vec_push, bind; rewrite E1; reflexivity|]. split.
    + rewrite bases_app. assert (X := tr_first _ _ _ _ this T1 G A0). cbn [app] in X. refine (tr_perm _ _ _ _ _ _ (fun a => iff_refl _) _ _ X); [intros a; rewrite !in_app_iff; tauto|].
      destruct X as (_ & m1 & _). apply nodup_app in m1. apply nodup_app. destruct m1 as (U & V & W). split; [exact V|split; [exact U|]]. intros a H K. exact (W a K H).
    + rewrite !map_app. cbn [map]. rewrite Vt, (view_keep _ _ _ _ _ T1 A0). reflexivity.
Qed.

(** ** Disjunctions *)
Lemma setupAsNew_ok d h : good h (d_terms d) ->
  exists h', setupAsNew d h = Some (h', {| d_plain := plain_reset (d_plain d); d_terms := [] |}) /\ tr h (bases (d_terms d)) h' [].
Proof.
  intros G. destruct (clear_all_ok _ h G) as (h1 & r & E & T & B). exists h1. split; [|exact T]. unfold setupAsNew, bind. rewrite E, no_bases_destroy by exact B. reflexivity.
Qed.
Lemma destroy_ok d h : good h (d_terms d) -> exists h', destroy d h = Some (h', tt) /\ tr h (bases (d_terms d)) h' [].
Proof.
  intros G. destruct (clear_all_ok _ h G) as (h1 & r & E & T & B). exists h1. split; [|exact T]. unfold destroy, bind. rewrite E, no_bases_destroy by exact B. reflexivity.
Qed.
Lemma initialize_ok fits this s P h : good h (d_terms this) -> away h (bases (d_terms this)) (d_terms s) ->
  exists h' ts, initialize fits this s P h = Some (h', {| d_plain := plain_copied (d_plain this) (d_plain s) P; d_terms := ts |}) /\
    tr h (bases (d_terms this)) h' (bases ts) /\ map (view_term h') ts = map (view_term h) (d_terms s).
Proof.
  intros G A. destruct (clear_all_ok _ h G) as (h1 & r & E & T & B). assert (A1 := away_keep _ _ _ _ _ T A).
  destruct (vec_assign_ok fits r (d_terms s) h1 B A1) as (h2 & ts & E2 & T2 & V). exists h2, ts.
  split; [unfold initialize, bind; rewrite E, E2; reflexivity|]. split; [exact (tr_trans _ _ _ _ _ _ T T2)|]. rewrite V. exact (view_keep _ _ _ _ _ T A).
Qed.
Lemma copy_ok s P h : away h [] (d_terms s) ->
  exists h' ts, copy s P h = Some (h', {| d_plain := plain_copied (plain_new (is_tree s) None) (d_plain s) P; d_terms := ts |}) /\
    tr h [] h' (bases ts) /\ map (view_term h') ts = map (view_term h) (d_terms s).
Proof.
  intros A. apply (initialize_ok false {| d_plain := plain_new (is_tree s) None; d_terms := [] |} s P h); [|exact A]. split; [constructor|intros ? []].
Qed.

(** ** All disjunctions *)
Definition owned (h : heap) (B : list nat) : Prop := NoDup B /\ forall a, In a B <-> live h a.
Definition obases (o : option disj) : list nat := match o with Some d => bases (d_terms d) | None => [] end.
Definition allb (l : list (option disj)) : list nat := flat_map obases l.
Definition at_ (l : list (option disj)) (i : nat) : option disj := match nth_error l i with Some d => d | None => None end.
Definition vw (h : heap) (l : list (option disj)) (i : nat) : option view :=
  match at_ l i with Some d => Some (d_plain d, map (view_term h) (d_terms d)) | None => None end.
Lemma owned_tr h O F h' O' : owned h (O ++ F) -> tr h O h' O' -> owned h' (O' ++ F).
Proof.
  intros [N L] T. apply nodup_app in N. destruct N as (N1 & N2 & N3).
  assert (X : tr h (O ++ F) h' (O' ++ F)). { apply tr_frame; [exact T|exact N2|]. intros a H. split; [apply L, in_app_iff; auto|]. intros K. exact (N3 a K H). }
  destruct X as (A1 & A2 & A3 & A4 & A5). split; [exact A2|]. intros a. split; [intros H; exact (proj1 (A3 a H))|]. intros H. destruct (A5 a H) as [Y|[Y Z]]; [exact Y|].
  exfalso. apply Z, L. unfold live in *. now rewrite A4 in H.
Qed.
Lemma owned_perm h B C : Permutation B C -> owned h B -> owned h C.
Proof.
  intros P [N L]. split; [exact (Permutation_NoDup P N)|]. intros a. rewrite <- L. split; [apply Permutation_in, Permutation_sym, P|apply Permutation_in, P].
Qed.
Lemma put_at {A} (l1 l2 : list (option A)) c a : put (l1 ++ c :: l2) (length l1) a = l1 ++ Some a :: l2.
Proof. induction l1; cbn; [reflexivity|]. now rewrite IHl1. Qed.
Lemma kill_at {A} (l1 l2 : list (option A)) c : kill (l1 ++ c :: l2) (length l1) = l1 ++ None :: l2.
Proof. induction l1; cbn; [reflexivity|]. now rewrite IHl1. Qed.
Lemma at_some l i d : at_ l i = Some d -> nth_error l i = Some (Some d).
Proof. unfold at_. destruct (nth_error l i); intros; congruence. Qed.
Lemma at_lt l i d : at_ l i = Some d -> (i < length l)%nat.
Proof. intros H. apply at_some in H. apply nth_error_Some. congruence. Qed.
Lemma allb_split l i d : at_ l i = Some d -> exists F, Permutation (allb l) (bases (d_terms d) ++ F) /\
  (forall e, Permutation (allb (put l i e)) (bases (d_terms e) ++ F)) /\ Permutation (allb (kill l i)) F.
Proof.
  intros H. apply at_some in H. destruct (nth_error_split _ _ H) as (l1 & l2 & -> & <-). exists (allb l1 ++ allb l2).
  split; [|split].
  - unfold allb. rewrite flat_map_app. cbn [flat_map obases]. rewrite !app_assoc. apply Permutation_app_tail, Permutation_app_comm.
  - intros e. rewrite put_at. unfold allb. rewrite flat_map_app. cbn [flat_map obases]. rewrite !app_assoc. apply Permutation_app_tail, Permutation_app_comm.
  - rewrite kill_at. unfold allb. rewrite flat_map_app. cbn [flat_map obases app]. apply Permutation_refl.
Qed.
Lemma in_allb l k e a : at_ l k = Some e -> In a (bases (d_terms e)) -> In a (allb l).
Proof. intros H K. apply at_some in H. apply nth_error_In in H. apply in_flat_map. exists (Some e). auto. Qed.
Lemma owned_good h l i d : owned h (allb l) -> at_ l i = Some d -> good h (d_terms d).
Proof.
  intros O H. destruct (allb_split l i d H) as (F & P & _). assert (O2 := owned_perm _ _ _ P O). destruct O2 as [N L]. apply nodup_app in N. split; [tauto|].
  intros a K. apply L, in_app_iff. auto.
Qed.
Lemma allb_disjoint l : forall i k d e a, NoDup (allb l) -> at_ l i = Some d -> at_ l k = Some e -> i <> k -> In a (bases (d_terms d)) -> ~ In a (bases (d_terms e)).
Proof.
  induction l as [|o r IH]; intros i k d e a N Hi Hk Ne Ha.
  - destruct i; discriminate Hi.
  - unfold allb in N. cbn [flat_map] in N. apply nodup_app in N. destruct N as (N1 & N2 & N3). destruct i as [|i]; destruct k as [|k]; [congruence| | |].
    + unfold at_ in Hi. cbn in Hi. subst o. intros K. apply (N3 a); [exact Ha|]. exact (in_allb r k e a Hk K).
    + unfold at_ in Hk. cbn in Hk. subst o. intros K. apply (N3 a); [exact K|]. exact (in_allb r i d a Hi Ha).
    + exact (IH i k d e a N2 Hi Hk (fun E => Ne (f_equal _ E)) Ha).
Qed.
Lemma others_away h l i k d e : owned h (allb l) -> at_ l i = Some d -> at_ l k = Some e -> i <> k -> away h (bases (d_terms d)) (d_terms e).
Proof.
  intros O Hi Hk Ne a Ha. split; [exact (proj2 (owned_good _ _ _ _ O Hk) a Ha)|]. intros K. exact (allb_disjoint l i k d e a (proj1 O) Hi Hk Ne K Ha).
Qed.
Lemma all_away h l k e : owned h (allb l) -> at_ l k = Some e -> away h [] (d_terms e).
Proof. intros O Hk a Ha. split; [exact (proj2 (owned_good _ _ _ _ O Hk) a Ha)|intros []]. Qed.
Lemma at_put l i d k : (i < length l)%nat -> at_ (put l i d) k = if Nat.eqb i k then Some d else at_ l k.
Proof.
  intros H. unfold at_. rewrite nth_put. destruct (Nat.eqb_spec i k); [|reflexivity]. subst k. apply nth_error_Some in H. destruct (nth_error l i); [reflexivity|congruence].
Qed.
Lemma at_kill l i k : at_ (kill l i) k = if Nat.eqb i k then None else at_ l k.
Proof. unfold at_. rewrite nth_kill. destruct (Nat.eqb i k); [destruct (nth_error l k); reflexivity|reflexivity]. Qed.
Lemma at_app l d k : at_ (l ++ [Some d]) k = if Nat.eqb (length l) k then Some d else at_ l k.
Proof.
  unfold at_. destruct (Nat.eqb_spec (length l) k) as [<-|N].
  - rewrite nth_error_app2 by lia. now rewrite Nat.sub_diag.
  - destruct (Nat.lt_ge_cases k (length l)); [now rewrite nth_error_app1|]. rewrite (proj2 (nth_error_None (l ++ [Some d]) k)), (proj2 (nth_error_None l k)); [reflexivity|lia|rewrite app_length; cbn; lia].
Qed.

Lemma at_none l i : (length l <= i)%nat -> at_ l i = None.
Proof. intros H. unfold at_. now rewrite (proj2 (nth_error_None l i)). Qed.

(** A disjunction is changed. *)
Lemma own_put h l i d h' d' : owned h (allb l) -> at_ l i = Some d -> tr h (bases (d_terms d)) h' (bases (d_terms d')) ->
  owned h' (allb (put l i d')) /\ (forall k, k <> i -> vw h' (put l i d') k = vw h l k).
Proof.
  intros O H T. destruct (allb_split l i d H) as (F & P & Q & _). split.
  - apply (owned_perm _ _ _ (Permutation_sym (Q d'))). apply (owned_tr _ _ _ _ _ (owned_perm _ _ _ P O) T).
  - intros k Ne. unfold vw. rewrite at_put by (exact (at_lt _ _ _ H)). destruct (Nat.eqb_spec i k); [congruence|]. destruct (at_ l k) as [e|] eqn:E; [|reflexivity].
    rewrite (view_keep _ _ _ _ _ T); [reflexivity|]. exact (others_away _ _ _ _ _ _ O H E n).
Qed.
(** A disjunction is deleted. *)
Lemma own_kill h l i d h' : owned h (allb l) -> at_ l i = Some d -> tr h (bases (d_terms d)) h' [] ->
  owned h' (allb (kill l i)) /\ (forall k, k <> i -> vw h' (kill l i) k = vw h l k).
Proof.
  intros O H T. destruct (allb_split l i d H) as (F & P & _ & Q). split.
  - apply (owned_perm _ _ _ (Permutation_sym Q)). apply (owned_tr _ _ F _ _ (owned_perm _ _ _ P O) T).
  - intros k Ne. unfold vw. rewrite at_kill. destruct (Nat.eqb_spec i k); [congruence|]. destruct (at_ l k) as [e|] eqn:E; [|reflexivity].
    rewrite (view_keep _ _ _ _ _ T); [reflexivity|]. exact (others_away _ _ _ _ _ _ O H E n).
Qed.
(** A disjunction is made. *)
Lemma own_app h l h' d' : owned h (allb l) -> tr h [] h' (bases (d_terms d')) ->
  owned h' (allb (l ++ [Some d'])) /\ (forall k, k <> length l -> vw h' (l ++ [Some d']) k = vw h l k).
Proof.
  intros O T. split.
  - assert (P : Permutation (bases (d_terms d') ++ allb l) (allb (l ++ [Some d']))). { unfold allb. rewrite flat_map_app. cbn [flat_map obases]. rewrite app_nil_r. apply Permutation_app_comm. }
    apply (owned_perm _ _ _ P). exact (owned_tr _ [] _ _ _ O T).
  - intros k Ne. unfold vw. rewrite at_app. destruct (Nat.eqb_spec (length l) k); [congruence|]. destruct (at_ l k) as [e|] eqn:E; [|reflexivity].
    rewrite (view_keep _ _ _ _ _ T); [reflexivity|]. exact (all_away _ _ _ _ O E).
Qed.
Lemma vw_at h l i d : at_ l i = Some d -> vw h l i = Some (d_plain d, map (view_term h) (d_terms d)).
Proof. intros E. unfold vw. now rewrite E. Qed.

(** The members of a copy. *)
Definition copy_view (P : option params) (v : view) : view :=
  (set_rounds None (match P with Some q => set_params q (fst v) | None => fst v end), snd v).
Lemma copied_new s P : plain_copied (plain_new (is_tree s) None) (d_plain s) P = set_rounds None (match P with Some q => set_params q (d_plain s) | None => d_plain s end).
Proof. unfold plain_copied, set_rounds, set_params, is_tree, plain_new. destruct P; cbn; destruct (p_own (d_plain s)); reflexivity. Qed.

(** Copies of several disjunctions. *)
Lemma clone_each_ok l : forall p, owned (g_heap p) (allb (g_disjs p)) -> (forall i, In i l -> the_disj p i <> None) ->
  exists p', clone_each p l = Some (p', seq (length (g_disjs p)) (length l)) /\ owned (g_heap p') (allb (g_disjs p')) /\ g_sets p' = g_sets p /\ g_mine p' = g_mine p /\
    length (g_disjs p') = (length (g_disjs p) + length l)%nat /\
    (forall k, (k < length (g_disjs p))%nat -> the_disj p' k = the_disj p k /\ view_of p' k = view_of p k) /\
    (forall n i, nth_error l n = Some i -> exists v, view_of p i = Some v /\ view_of p' (length (g_disjs p) + n) = Some (copy_view None v)).
Proof.
  induction l as [|i r IH]; intros p O L.
  - exists p. split; [reflexivity|]. split; [exact O|]. split; [reflexivity|]. split; [reflexivity|]. split; [cbn; lia|]. split; [auto|]. intros [|n] j H; discriminate H.
  - assert (Li := L i (or_introl eq_refl)). destruct (the_disj p i) as [d|] eqn:E; [|congruence].
    assert (Ei : at_ (g_disjs p) i = Some d) by exact E.
    destruct (copy_ok d None (g_heap p) (all_away _ _ _ _ O Ei)) as (h & ts & C & T & V). rewrite copied_new in C.
    set (d' := {| d_plain := set_rounds None (d_plain d); d_terms := ts |}) in *.
    destruct (own_app _ _ _ d' O T) as [O1 W1].
    set (p1 := {| g_heap := h; g_disjs := g_disjs p ++ [Some d']; g_sets := g_sets p; g_mine := g_mine p |}).
    assert (L1 : forall j, In j r -> the_disj p1 j <> None).
    { intros j Hj. assert (X := L j (or_intror Hj)). change (at_ (g_disjs p ++ [Some d']) j <> None). rewrite at_app. destruct (Nat.eqb (length (g_disjs p)) j); [discriminate|exact X]. }
    destruct (IH p1 O1 L1) as (p2 & K1 & K2 & K3 & K4 & K5 & K6 & K7). exists p2.
    assert (N1 : length (g_disjs p1) = S (length (g_disjs p))) by (cbn; rewrite app_length; cbn; lia).
    split; [cbn [clone_each]; rewrite E, C; fold d' p1; rewrite K1, N1; reflexivity|]. split; [exact K2|]. split; [exact K3|]. split; [exact K4|]. split; [rewrite K5, N1; cbn; lia|]. split.
    + intros k Hk. destruct (K6 k) as [Y1 Y2]; [lia|]. split.
      * rewrite Y1. change (at_ (g_disjs p ++ [Some d']) k = at_ (g_disjs p) k). rewrite at_app. destruct (Nat.eqb_spec (length (g_disjs p)) k); [lia|reflexivity].
      * rewrite Y2. apply W1. lia.
    + intros [|n] j H.
      * cbn in H. injection H as <-. exists (d_plain d, map (view_term (g_heap p)) (d_terms d)). split; [exact (vw_at _ _ _ _ Ei)|].
        rewrite Nat.add_0_r. destruct (K6 (length (g_disjs p))) as [_ Y2]; [lia|]. rewrite Y2. change (vw h (g_disjs p ++ [Some d']) (length (g_disjs p)) = Some (copy_view None (d_plain d, map (view_term (g_heap p)) (d_terms d)))).
        unfold vw. rewrite at_app, Nat.eqb_refl. cbn [d' d_plain d_terms]. rewrite V. reflexivity.
      * cbn in H. destruct (K7 n j H) as (v & Y1 & Y2). assert (Hj := nth_error_In _ _ H). exists v. split.
        -- rewrite <- Y1. symmetry. apply W1. assert (X := L j (or_intror Hj)). intros ->. apply X. exact (at_none _ _ (le_n _)).
        -- rewrite N1 in Y2. replace (length (g_disjs p) + S n)%nat with (S (length (g_disjs p)) + n)%nat by lia. exact Y2.
Qed.
(** Several disjunctions are deleted. *)
Lemma delete_each_ok l : forall p, owned (g_heap p) (allb (g_disjs p)) -> NoDup l -> (forall i, In i l -> the_disj p i <> None) ->
  exists p', delete_each p l = Some p' /\ owned (g_heap p') (allb (g_disjs p')) /\ g_sets p' = g_sets p /\ g_mine p' = g_mine p /\
    length (g_disjs p') = length (g_disjs p) /\
    (forall k, In k l -> the_disj p' k = None) /\ (forall k, ~ In k l -> (the_disj p' k = the_disj p k) /\ view_of p' k = view_of p k).
Proof.
  induction l as [|i r IH]; intros p O N L.
  - exists p. split; [reflexivity|]. split; [exact O|]. split; [reflexivity|]. split; [reflexivity|]. split; [reflexivity|]. split; [intros ? []|auto].
  - assert (Li := L i (or_introl eq_refl)). destruct (the_disj p i) as [d|] eqn:E; [|congruence].
    assert (Ei : at_ (g_disjs p) i = Some d) by exact E.
    destruct (destroy_ok d (g_heap p) (owned_good _ _ _ _ O Ei)) as (h & C & T). destruct (own_kill _ _ _ _ _ O Ei T) as [O1 W1].
    set (p1 := {| g_heap := h; g_disjs := kill (g_disjs p) i; g_sets := g_sets p; g_mine := g_mine p |}).
    apply NoDup_cons_iff in N. destruct N as [N1 N2].
    assert (S1 : forall k, the_disj p1 k = if Nat.eqb i k then None else the_disj p k) by (intros k; exact (at_kill _ _ _)).
    assert (L1 : forall j, In j r -> the_disj p1 j <> None).
    { intros j Hj. rewrite S1. destruct (Nat.eqb_spec i j); [subst; tauto|]. exact (L j (or_intror Hj)). }
    destruct (IH p1 O1 N2 L1) as (p2 & K1 & K2 & K3 & K4 & K5 & K6 & K7). exists p2.
    split; [cbn [delete_each]; rewrite E, C; exact K1|]. split; [exact K2|]. split; [exact K3|]. split; [exact K4|]. split; [rewrite K5; apply kill_len|]. split.
    + intros k [<-|Hk]; [|exact (K6 k Hk)]. destruct (K7 i N1) as [X _]. rewrite X, S1, Nat.eqb_refl. reflexivity.
    + intros k Hk. cbn in Hk. destruct (K7 k) as [X Y]; [tauto|]. split.
      * rewrite X, S1. destruct (Nat.eqb_spec i k); [tauto|reflexivity].
      * rewrite Y. apply W1. intros ->. tauto.
Qed.
