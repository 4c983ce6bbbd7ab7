(** * C83: copies of disjunctions are equal to their sources, independent of them, and everything is released exactly once *)
From Verif Require Import Spec.CopySpec Proofs.CopiesP Proofs.CopyStepP.
From Coq Require Import Permutation.
#[local] Open Scope Z_scope.

(** Allowed commands, in whatever order, never use or delete a deleted object. *)
Theorem never_undefined p c : history p -> allowed p c -> exists p', exec p c = Some p'.
Proof. intros H A. destruct (step_all p c (history_inv p H) A) as (p' & E & _). eauto. Qed.
Print Assumptions never_undefined.

(** A copy (copy constructor, clone) shows the same members, terms and bases; with parameters given, those; the member num_rounds
    is not copied. *)
Theorem copy_equal p i P p' pl ts : history p -> exec p (DCopy i P) = Some p' -> view_of p i = Some (pl, ts) ->
  the_disj p (length (g_disjs p)) = None /\
  view_of p' (length (g_disjs p)) = Some (set_rounds None (match P with Some q => set_params q pl | None => pl end), ts).
Proof.
  intros H E V. assert (A : allowed p (DCopy i P)). { cbn. unfold view_of in V. destruct (the_disj p i); congruence. }
  destruct (history_step p (DCopy i P) p' H A E) as (_ & _ & (v & V1 & V2) & _). rewrite V in V1. injection V1 as <-. split; [exact (at_none _ _ (le_n _))|exact V2].
Qed.
Print Assumptions copy_equal.
(** Without num_rounds (for split disjunctions, and trees where it has not been written) the copy cannot be told from the source. *)
Theorem copy_same p i p' pl ts : history p -> exec p (DCopy i None) = Some p' -> view_of p i = Some (pl, ts) -> rounds_of pl = None ->
  view_of p' (length (g_disjs p)) = view_of p i.
Proof.
  intros H E V R. rewrite V. rewrite (proj2 (copy_equal p i None p' pl ts H E V)). do 2 f_equal. unfold set_rounds. destruct pl as [a b c d e f g h j k l m n o q]. cbn in *. destruct q; [reflexivity|]. cbn in R. now subst.
Qed.
Print Assumptions copy_same.
(** After an assignment of a disjunction of the same class the target shows the members, terms and bases of the source, but
    num_rounds stays; assignment to itself does nothing. *)
Theorem assign_equal p i j fits p' v w tv tw : history p -> exec p (DAssign i j fits) = Some p' -> view_of p i = Some (v, tv) -> view_of p j = Some (w, tw) ->
  (i <> j -> same_kind v w -> view_of p' i = Some (set_rounds (rounds_of v) w, tw) /\ view_of p' j = Some (w, tw)) /\ (i = j -> p' = p).
Proof.
  intros H E V W. assert (L : the_disj p i <> None /\ the_disj p j <> None). { unfold view_of in V, W. destruct (the_disj p i); destruct (the_disj p j); split; congruence. }
  destruct (history_step p (DAssign i j fits) p' H L E) as (_ & F & (v' & w' & V1 & W1 & R1 & R2) & _). rewrite V in V1. rewrite W in W1. injection V1 as <-. injection W1 as <-. split; [|exact R2].
  intros Ne K. split.
  - rewrite (R1 Ne). cbn [fst snd]. do 2 f_equal. unfold plain_copied, set_rounds, rounds_of, same_kind in *. destruct (p_own v); destruct (p_own w); cbn; tauto || reflexivity.
  - destruct F as (F1 & _). rewrite F1; [exact W|exact (proj2 L)|cbn; congruence|cbn; tauto].
Qed.
Print Assumptions assign_equal.
(** A term appended or assigned shows the members and the basis of its source. *)
Theorem terms_equal p p' i t b grow pl ts : history p -> exec p (DAddTerm i t b grow) = Some p' -> view_of p i = Some (pl, ts) -> view_of p' i = Some (pl, ts ++ [(t, b)]).
Proof.
  intros H E V. assert (L : the_disj p i <> None). { unfold view_of in V. destruct (the_disj p i); congruence. }
  destruct (history_step p (DAddTerm i t b grow) p' H L E) as (_ & _ & (v & V1 & V2) & _). rewrite V in V1. injection V1 as <-. exact V2.
Qed.
Print Assumptions terms_equal.
Theorem term_assign_equal p p' i k j l v tv w tw x y : history p -> exec p (DTermAssign i k j l) = Some p' -> view_of p i = Some (v, tv) -> view_of p j = Some (w, tw) ->
  nth_error tv k = Some x -> nth_error tw l = Some y -> exists tv', view_of p' i = Some (v, tv') /\ length tv' = length tv /\ nth_error tv' k = Some y /\ forall m, m <> k -> nth_error tv' m = nth_error tv m.
Proof.
  intros H E V W Hx Hy. assert (A : allowed p (DTermAssign i k j l)).
  { unfold view_of in V, W. cbn. destruct (the_disj p i) as [d|]; [|congruence]. destruct (the_disj p j) as [e|]; [|congruence]. injection V as _ <-. injection W as _ <-.
    rewrite nth_error_map in Hx, Hy. split; [exists d|exists e]; (split; [reflexivity|]); apply nth_error_Some; [destruct (nth_error (d_terms d) k)|destruct (nth_error (d_terms e) l)]; discriminate || congruence. }
  destruct (history_step p (DTermAssign i k j l) p' H A E) as (_ & _ & (v' & w' & t & V1 & W1 & T & V2) & _). rewrite V in V1. rewrite W in W1. injection V1 as <-. injection W1 as <-. cbn [fst snd] in *. assert (t = y) by congruence. subst t.
  exists (firstn k tv ++ y :: skipn (S k) tv). split; [exact V2|]. destruct (nth_error_split _ _ Hx) as (a & b & -> & <-). rewrite firstn_mid, skipn_mid. split; [rewrite !app_length; reflexivity|].
  split; [rewrite nth_error_app2 by lia; now rewrite Nat.sub_diag|]. intros m Hm. destruct (Nat.lt_ge_cases m (length a)) as [Z|Z]; [now rewrite !nth_error_app1|]. rewrite !nth_error_app2 by lia. destruct (m - length a)%nat eqn:Q; [lia|reflexivity].
Qed.
Print Assumptions term_assign_equal.
(** setupAsNew leaves what a new disjunction shows, but for parameters, timer, the variable of a split, and num_rounds. *)
Theorem setup_as_new p i p' pl ts : history p -> exec p (DSetupAsNew i) = Some p' -> view_of p i = Some (pl, ts) ->
  exists n, view_of p' i = Some (n, []) /\ p_params n = p_params pl /\ p_timer n = p_timer pl /\ rounds_of n = rounds_of pl /\
    p_id n = -1 /\ p_name n = [] /\ p_best n = DBL_MAXv /\ p_worst n = Qopp DBL_MAXv /\ p_iobj n = DBL_MAXv /\ p_isol n = [] /\ p_cvar n = [] /\ p_cbound n = [] /\ p_cvalue n = [] /\
    p_root_obj n = DBL_MAXv /\ p_cineqs n = [] /\ p_num_terms n = 0 /\
    (forall r d m, p_own pl = Tree r d m -> p_own n = Tree root_new data_new m) /\ (forall z, p_own pl = Split z -> p_own n = Split z).
Proof.
  intros H E V. assert (L : the_disj p i <> None). { unfold view_of in V. destruct (the_disj p i); congruence. }
  destruct (history_step p (DSetupAsNew i) p' H L E) as (_ & _ & (v & V1 & V2) & _). rewrite V in V1. injection V1 as <-. exists (plain_reset pl). split; [exact V2|].
  do 2 (split; [reflexivity|]). split; [unfold rounds_of, plain_reset; cbn; destruct (p_own pl); reflexivity|]. do 12 (split; [reflexivity|]). split; [intros r d m X|intros z X]; unfold plain_reset; cbn; now rewrite X.
Qed.
Print Assumptions setup_as_new.

(** ** Sets *)
Lemma nth_ext_map {A B} (f : nat -> B) (g : A -> B) (l : list A) n : (forall m a, nth_error l m = Some a -> f (n + m)%nat = g a) -> map f (seq n (length l)) = map g l.
Proof.
  revert n. induction l as [|a l IH]; intros n H; [reflexivity|]. cbn. f_equal.
  - rewrite <- (H 0%nat a eq_refl). f_equal. lia.
  - apply IH. intros m b Hb. rewrite <- (H (S m) b Hb). f_equal. lia.
Qed.
(** What a copy shows of a disjunction in the source. *)
Definition copied (o : option view) : option view := match o with Some v => Some (set_rounds None (fst v), snd v) | None => None end.
(** A copy of a set holds as many disjunctions, in the same order, each a copy, and the same values. *)
Theorem set_copy_equal p s p' pl vs : history p -> exec p (SCopy s) = Some p' -> set_view_of p s = Some (pl, vs) -> set_view_of p' (length (g_sets p)) = Some (pl, map copied vs).
Proof.
  intros H E V. assert (L : the_set p s <> None). { unfold set_view_of in V. destruct (the_set p s); congruence. }
  destruct (history_step p (SCopy s) p' H L E) as (_ & _ & (x & X1 & X2 & X3) & _). unfold set_view_of in *. rewrite X1 in V. injection V as <- <-. rewrite X2. cbn [s_plain s_disjs]. do 2 f_equal. rewrite map_map.
  apply nth_ext_map. intros m a Ha. destruct (X3 m a Ha) as (v & Y1 & Y2). rewrite Y2, Y1. reflexivity.
Qed.
Print Assumptions set_copy_equal.
Theorem set_assign_equal p s t p' pl vs : history p -> allowed p (SAssign s t) -> exec p (SAssign s t) = Some p' -> s <> t -> set_view_of p t = Some (pl, vs) ->
  set_view_of p' s = Some (pl, map copied vs) /\ set_view_of p' t = Some (pl, vs).
Proof.
  intros H A E Ne V. assert (I := history_inv p H). destruct (history_step p (SAssign s t) p' H A E) as (_ & F & (x & X1 & _ & X2) & X5 & _). destruct (X2 Ne) as [X3 X4]. split.
  - unfold set_view_of in *. rewrite X1 in V. injection V as <- <-. rewrite X3. cbn [s_plain s_disjs]. do 2 f_equal. rewrite map_map.
    apply nth_ext_map. intros m a Ha. destruct (X4 m a Ha) as (v & Y1 & Y2). rewrite Y2, Y1. reflexivity.
  - assert (Z : the_set p' t = the_set p t) by (apply X5; [exact (proj2 A)|cbn; congruence]). unfold set_view_of in *. rewrite Z, X1 in *. rewrite <- V. do 2 f_equal. apply map_ext_in. intros i Hi.
    destruct F as (F1 & _). apply F1; [apply (proj2 (proj2 I)); exact (in_kept_set _ _ _ _ X1 Hi)|cbn; tauto|cbn; tauto].
Qed.
Print Assumptions set_assign_equal.
(** A disjunction added to a set is copied, with its place as id; those already there are not touched. *)
Theorem add_equal p s i p' pl vs d ts : history p -> exec p (SAdd s i) = Some p' -> set_view_of p s = Some (pl, vs) -> view_of p i = Some (d, ts) ->
  exists pl', set_view_of p' s = Some (pl', vs ++ [Some (set_id (Z.of_nat (length vs)) (set_rounds None d), ts)]) /\ view_of p' i = Some (d, ts).
Proof.
  intros H E V W. assert (A : allowed p (SAdd s i)). { unfold set_view_of in V. unfold view_of in W. cbn. destruct (the_set p s); destruct (the_disj p i); split; congruence. }
  assert (I := history_inv p H). destruct (history_step p (SAdd s i) p' H A E) as (_ & F & (x & v & X1 & X2 & X3 & X4) & _). rewrite W in X2. injection X2 as <-. cbn [fst snd] in *.
  destruct F as (F1 & _). exists (set_values (s_plain x) (set_id (Z.of_nat (length (s_disjs x))) (set_rounds None d))). split.
  - unfold set_view_of in *. rewrite X1 in V. injection V as <- <-. rewrite X3. cbn [s_plain s_disjs]. rewrite map_app, map_length. cbn [map]. rewrite X4. do 3 f_equal. apply map_ext_in. intros k Hk.
    apply F1; [apply (proj2 (proj2 I)); exact (in_kept_set _ _ _ _ X1 Hk)|cbn; tauto|cbn; tauto].
  - rewrite F1; [exact W|exact (proj2 A)|cbn; tauto|cbn; tauto].
Qed.
Print Assumptions add_equal.
(** The values of a set: the least best, greatest worst and least integer objective of what was there and what was added, and who
    attains them; the incumbent only if the new one has one. *)
Theorem add_values p s i p' x y d : history p -> allowed p (SAdd s i) -> exec p (SAdd s i) = Some p' -> the_set p s = Some x -> the_set p' s = Some y -> the_disj p i = Some d ->
  let a := s_plain x in let b := s_plain y in let e := d_plain d in let n := Z.of_nat (length (s_disjs x)) in
  ((p_best e < s_best a)%Q -> s_best b = p_best e /\ s_best_i b = n) /\ ((s_best a <= p_best e)%Q -> s_best b = s_best a /\ s_best_i b = s_best_i a) /\
  ((s_worst a < p_worst e)%Q -> s_worst b = p_worst e /\ s_worst_i b = n) /\ ((p_worst e <= s_worst a)%Q -> s_worst b = s_worst a /\ s_worst_i b = s_worst_i a) /\
  ((p_iobj e < s_iobj a)%Q -> s_iobj b = p_iobj e /\ s_iobj_i b = n /\ s_isol b = match p_isol e with [] => s_isol a | z => z end) /\
  ((s_iobj a <= p_iobj e)%Q -> s_iobj b = s_iobj a /\ s_iobj_i b = s_iobj_i a /\ s_isol b = s_isol a).
Proof.
  intros H A E X Y D. destruct (history_step p (SAdd s i) p' H A E) as (_ & _ & (x' & v & X1 & X2 & X3 & _) & _). cbv zeta. rewrite X in X1. injection X1 as <-. unfold view_of in X2. rewrite D in X2. injection X2 as <-. cbn [fst snd] in *.
  rewrite Y in X3. injection X3 as ->. cbn [s_plain]. unfold set_values. cbn [s_best s_best_i s_worst s_worst_i s_iobj s_iobj_i s_isol].
  change (p_best (set_id (Z.of_nat (length (s_disjs x))) (set_rounds None (d_plain d)))) with (p_best (d_plain d)). change (p_worst (set_id (Z.of_nat (length (s_disjs x))) (set_rounds None (d_plain d)))) with (p_worst (d_plain d)).
  change (p_iobj (set_id (Z.of_nat (length (s_disjs x))) (set_rounds None (d_plain d)))) with (p_iobj (d_plain d)). change (p_isol (set_id (Z.of_nat (length (s_disjs x))) (set_rounds None (d_plain d)))) with (p_isol (d_plain d)).
  change (p_id (set_id (Z.of_nat (length (s_disjs x))) (set_rounds None (d_plain d)))) with (Z.of_nat (length (s_disjs x))).
  destruct (Qltb_reflect (p_best (d_plain d)) (s_best (s_plain x))) as [B1|B1]; destruct (Qltb_reflect (s_worst (s_plain x)) (p_worst (d_plain d))) as [B2|B2]; destruct (Qltb_reflect (p_iobj (d_plain d)) (s_iobj (s_plain x))) as [B3|B3];
    (split; [intros Z|split; [intros Z|split; [intros Z|split; [intros Z|split; intros Z]]]]); try (exfalso; revert Z; first [apply Qlt_not_le; assumption | assumption]); repeat split.
Qed.
Print Assumptions add_values.

(** ** Independence *)
(** A command changes nothing that can be seen of a disjunction it neither writes nor deletes. *)
Theorem independent p c p' k : history p -> allowed p c -> exec p c = Some p' -> the_disj p k <> None -> ~ writes c k -> ~ deletes p c k -> view_of p' k = view_of p k.
Proof. intros H A E L W D. destruct (history_step p c p' H A E) as (_ & (F & _) & _). exact (F k L W D). Qed.
Print Assumptions independent.
(** Over any sequence of commands: whatever is done to copies of it, or to what it was copied from, also deleting them. *)
Inductive untouched (k : nat) (p : prog) : prog -> Prop :=
| u_none : untouched k p p
| u_one q c r : untouched k p q -> allowed q c -> exec q c = Some r -> ~ writes c k -> ~ deletes q c k -> untouched k p r.
Lemma untouched_history k p q : history p -> untouched k p q -> history q.
Proof. intros H U. induction U; [exact H|]. exact (h_step _ _ _ IHU H0 H1). Qed.
Theorem independent_for_ever p q k : history p -> the_disj p k <> None -> untouched k p q -> view_of q k = view_of p k.
Proof.
  intros H L U. induction U as [|q c r U IH A E W D]; [reflexivity|]. rewrite <- IH. apply (independent q c r k (untouched_history _ _ _ H U) A E); [|exact W|exact D].
  unfold view_of in IH. destruct (the_disj q k); [discriminate|]. destruct (the_disj p k); congruence.
Qed.
Print Assumptions independent_for_ever.
(** A set shows the same if neither it nor one of its disjunctions is written or deleted. *)
Theorem sets_independent p c p' s x : history p -> allowed p c -> exec p c = Some p' -> the_set p s = Some x -> ~ writes_set c s ->
  (forall k, In k (s_disjs x) -> ~ writes c k /\ ~ deletes p c k) -> set_view_of p' s = set_view_of p s.
Proof.
  intros H A E X W D. assert (I := history_inv p H). destruct (history_step p c p' H A E) as (_ & (F & _) & _ & S & _). unfold set_view_of. rewrite (S s) by congruence. rewrite X. do 2 f_equal. apply map_ext_in. intros k Hk.
  destruct (D k Hk) as [D1 D2]. apply F; [apply (proj2 (proj2 I)); exact (in_kept_set _ _ _ _ X Hk)|exact D1|exact D2].
Qed.
Print Assumptions sets_independent.
Lemma inset_disjoint l : forall s t x y i, NoDup (inset l) -> nth_error l s = Some (Some x) -> nth_error l t = Some (Some y) -> In i (s_disjs x) -> In i (s_disjs y) -> s = t.
Proof.
  induction l as [|o r IH]; intros s t x y i N Hs Ht Hx Hy; [destruct s; discriminate Hs|]. unfold inset in N. cbn [flat_map] in N. apply nodup_app in N. destruct N as (N1 & N2 & N3).
  assert (SUB : forall u z, nth_error r u = Some (Some z) -> In i (s_disjs z) -> In i (flat_map olists r)). { intros u z Hu Hz. apply in_flat_map. exists (Some z). split; [exact (nth_error_In _ _ Hu)|exact Hz]. }
  destruct s as [|s]; destruct t as [|t]; [reflexivity| | |].
  - cbn in Hs, Ht. injection Hs as ->. exfalso. exact (N3 i Hx (SUB t y Ht Hy)).
  - cbn in Hs, Ht. injection Ht as ->. exfalso. exact (N3 i Hy (SUB s x Hs Hx)).
  - f_equal. exact (IH s t x y i N2 Hs Ht Hx Hy).
Qed.
(** No two sets share a disjunction, none holds one twice, and no disjunction of a set is one of the program's own. *)
Theorem not_shared p : history p ->
  (forall s t x y i, the_set p s = Some x -> the_set p t = Some y -> In i (s_disjs x) -> In i (s_disjs y) -> s = t) /\
  (forall s x, the_set p s = Some x -> NoDup (s_disjs x)) /\ (forall s x i, the_set p s = Some x -> In i (s_disjs x) -> ~ In i (g_mine p) /\ the_disj p i <> None).
Proof.
  intros H. destruct (history_inv p H) as (_ & N & K). assert (N0 := N). unfold kept in N. apply nodup_app in N. destruct N as (N1 & N2 & N3). split; [|split].
  - intros s t x y i Hs Ht. exact (inset_disjoint _ s t x y i N2 (the_set_nth _ _ _ Hs) (the_set_nth _ _ _ Ht)).
  - intros s x Hs. destruct (inset_split _ _ _ (the_set_nth _ _ _ Hs)) as (F & P & _). assert (Z := Permutation_NoDup P N2). apply nodup_app in Z. tauto.
  - intros s x i Hs Hi. split; [|apply K; exact (in_kept_set _ _ _ _ Hs Hi)]. intros Z. apply (N3 i Z). apply in_flat_map. exists (Some x). split; [exact (nth_error_In _ _ (the_set_nth _ _ _ Hs))|exact Hi].
Qed.
Print Assumptions not_shared.

(** ** Release *)
(** Every basis in memory belongs to a term of a disjunction in memory; in particular, with the last disjunction the last basis is
    released. *)
Theorem bases_released p : history p ->
  (forall a b, cell (g_heap p) a = Some b -> exists i d t, the_disj p i = Some d /\ In t (d_terms d) /\ t_basis t = Some a) /\
  ((forall i, the_disj p i = None) -> forall a, cell (g_heap p) a = None).
Proof.
  intros H. destruct (history_inv p H) as ((N & L) & _).
  assert (X : forall a b, cell (g_heap p) a = Some b -> exists i d t, the_disj p i = Some d /\ In t (d_terms d) /\ t_basis t = Some a).
  { intros a b E. assert (La : In a (allb (g_disjs p))) by (apply L; unfold live; congruence). apply in_flat_map in La. destruct La as ([d|] & L1 & L2); [|destruct L2].
    apply In_nth_error in L1. destruct L1 as [i L1]. cbn [obases] in L2. apply in_flat_map in L2. destruct L2 as (t & L3 & L4). exists i, d, t. split; [unfold the_disj; now rewrite L1|]. split; [exact L3|].
    destruct (t_basis t); cbn in L4; [destruct L4 as [->|[]]; reflexivity|destruct L4]. }
  split; [exact X|]. intros D a. destruct (cell (g_heap p) a) as [b|] eqn:E; [|reflexivity]. destruct (X a b E) as (i & d & _ & Z & _). rewrite D in Z. discriminate.
Qed.
Print Assumptions bases_released.
Lemma careful_history p : careful p -> history p.
Proof. induction 1; [constructor|]. eapply h_step; eauto. Qed.
(** Programs that never assign to, or set up as new, a set that holds disjunctions can reach every disjunction in memory; with its
    own disjunctions deleted and its sets destroyed, nothing is left. *)
Theorem careful_released p : careful p ->
  (forall i, the_disj p i <> None -> reachable p i) /\
  (g_mine p = [] -> (forall s, the_set p s = None) -> (forall i, the_disj p i = None) /\ forall a, cell (g_heap p) a = None).
Proof.
  intros C. assert (X : forall i, the_disj p i <> None -> reachable p i).
  { induction C as [|p c p' C IH A D E]; [intros [|i] Z; exfalso; apply Z; reflexivity|]. intros i L. apply kept_reach.
    destruct (history_step p c p' (careful_history p C) A E) as (_ & F & _ & _ & _ & R). destruct F as (_ & F2 & F3 & F4 & F5 & F6).
    destruct (Nat.lt_ge_cases i (length (g_disjs p))) as [Z|Z]; [|exact (F6 i Z L)]. destruct (the_disj p i) eqn:Q; [|exfalso; apply L; exact (F4 i Z Q)].
    assert (NZ : the_disj p i <> None) by congruence. destruct (R D i) as [Y|Y]; [apply kept_reach, IH; congruence|exact Y|]. exfalso. apply L. apply (F2 i NZ). exact Y. }
  split; [exact X|]. intros M S. assert (N : forall i, the_disj p i = None).
  { intros i. destruct (the_disj p i) eqn:Q; [|reflexivity]. destruct (X i) as [Y|(s & x & Y & _)]; [congruence| |]; [rewrite M in Y; destruct Y|rewrite S in Y; discriminate]. }
  split; [exact N|]. exact (proj2 (bases_released p (careful_history p C)) N).
Qed.
Print Assumptions careful_released.
Lemma clone_each_mine l : forall p p' r, clone_each p l = Some (p', r) -> g_mine p' = g_mine p.
Proof.
  induction l as [|a l IH]; intros p p' r E; cbn [clone_each] in E; [now injection E as <- _|]. destruct (the_disj p a); [|discriminate]. destruct (copy d None (g_heap p)) as [[h d']|]; [|discriminate].
  match type of E with match clone_each ?q l with _ => _ end = _ => destruct (clone_each q l) as [[p1 r1]|] eqn:Q; [|discriminate] end. injection E as <- _. exact (IH _ _ _ Q).
Qed.
(** Otherwise every disjunction the set held stays in memory for ever: no command of the program can delete it any more. *)
Theorem set_dropped_refuted p c p' s x i : history p -> allowed p c -> exec p c = Some p' -> the_set p s = Some x -> In i (s_disjs x) ->
  (c = SSetupAsNew s \/ exists t, t <> s /\ c = SAssign s t) -> forall cs q, later p' cs q -> view_of q i <> None /\ ~ reachable q i.
Proof.
  intros H A E X Hi C. assert (I := history_inv p H). destruct (not_shared p H) as (NS1 & NS2 & NS3). destruct (NS3 s x i X Hi) as [NM LV].
  assert (ST := history_step p c p' H A E). assert (H' : history p') by exact (h_step _ _ _ H A E).
  assert (B : the_disj p' i <> None /\ ~ reachable p' i).
  { destruct ST as (_ & F & O & S1 & S2 & _). destruct F as (_ & F2 & _). assert (ND : ~ deletes p c i) by (destruct C as [-> |(t & _ & ->)]; cbn; tauto).
    split; [intros Z; apply ND, (F2 i LV), Z|]. intros [R|(u & y & R1 & R2)].
    - apply NM. assert (M : g_mine p' = g_mine p).
      { destruct C as [-> |(t & Ne & ->)]; cbn [exec] in E; rewrite X in E; [injection E as <-; reflexivity|]. destruct (the_set p t) as [z|]; [|discriminate].
        rewrite (proj2 (Nat.eqb_neq s t)) in E by congruence. destruct (clone_each p (s_disjs z)) as [[p1 l]|] eqn:Q; [|discriminate]. injection E as <-. exact (clone_each_mine _ _ _ _ Q). }
      rewrite <- M. exact R.
    - destruct (Nat.eq_dec u s) as [->|Nu].
      + destruct C as [-> |(t & Ne & ->)]; cbn [outcome] in O.
        * rewrite R1 in O. injection O as ->. destruct R2.
        * destruct O as (z & _ & _ & O). destruct (O ltac:(congruence)) as [O1 _]. rewrite R1 in O1. injection O1 as ->. cbn in R2. apply in_seq in R2. apply the_lt in LV. lia.
      + assert (WS : ~ writes_set c u) by (destruct C as [-> |(t & _ & ->)]; exact Nu). destruct (the_set p u) as [w|] eqn:U.
        * rewrite (S1 u) in R1; [|congruence|exact WS]. assert (w = y) by congruence. subst w. exact (Nu (NS1 u s y x i U X R2 Hi)).
        * assert (Y : the_set p' u <> None) by congruence. destruct (S2 u U Y) as [Z|[t Z]]; destruct C as [C|(t' & _ & C)]; rewrite C in Z; discriminate Z. }
  intros cs q L. assert (G : history q /\ the_disj q i <> None /\ ~ reachable q i).
  { induction L as [|cs q c2 r L IH A2 E2]; [auto|]. destruct IH as (IH1 & IH2 & IH3). split; [exact (h_step _ _ _ IH1 A2 E2)|].
    destruct (history_step q c2 r IH1 A2 E2) as (_ & F & _). destruct F as (_ & F2 & _ & _ & F5 & _). split.
    - intros Z. apply (F2 i IH2) in Z. apply IH3. unfold reachable. destruct c2; cbn in Z; try contradiction; [subst; left; exact A2|]. destruct Z as (w & Z1 & Z2). eauto.
    - intros Z. apply kept_reach in Z. destruct (F5 i Z) as [Y|Y]; [apply IH3, kept_reach, Y|]. apply the_lt in IH2. lia. }
  destruct G as (_ & G1 & G2). split; [|exact G2]. unfold view_of. destruct (the_disj q i); [discriminate|congruence].
Qed.
Print Assumptions set_dropped_refuted.

(** ** Finding a disjunction *)
(** In a set that starts empty or as a copy of such a set, and to which disjunctions are added, ids stay places, as long as the
    program does not write the disjunctions of the set. *)
Theorem ids_stay p c p' s : history p -> allowed p c -> exec p c = Some p' -> (forall t, ids_are_positions p t) ->
  (forall i t x, the_set p t = Some x -> In i (s_disjs x) -> ~ writes c i) -> ids_are_positions p' s.
Proof.
  intros H A E ID W. assert (I := history_inv p H). destruct (history_step p c p' H A E) as (I' & F & O & S1 & S2 & _). destruct F as (F1 & F2 & F3 & F4 & F5 & F6).
  assert (ID1 : forall t x k i v, the_set p t = Some x -> nth_error (s_disjs x) k = Some i -> view_of p i = Some v -> p_id (fst v) = Z.of_nat k).
  { intros t x k i v Ht Hk Hv. unfold view_of in Hv. destruct (the_disj p i) as [d|] eqn:D; [|discriminate]. injection Hv as <-. exact (ID t x k i d Ht Hk D). }
  assert (LIV : forall t x i, the_set p t = Some x -> In i (s_disjs x) -> the_disj p i <> None) by (intros t x i Ht Hi; apply (proj2 (proj2 I)); exact (in_kept_set _ _ _ _ Ht Hi)).
  assert (VID : forall i v d, view_of p' i = Some v -> the_disj p' i = Some d -> p_id (d_plain d) = p_id (fst v)).
  { intros i v d Hv Hd. unfold view_of in Hv. rewrite Hd in Hv. injection Hv as <-. reflexivity. }
  assert (OLD : forall t x k i d, the_set p t = Some x -> nth_error (s_disjs x) k = Some i -> the_disj p' i = Some d -> p_id (d_plain d) = Z.of_nat k).
  { intros t x k i d Ht Hk Hd. assert (Hi := nth_error_In _ _ Hk). assert (Li := LIV t x i Ht Hi). destruct (view_some p i Li) as [v Hv].
    assert (ND : ~ deletes p c i). { intros Z. apply (F2 i Li) in Z. congruence. }
    assert (V' := F1 i Li (W i t x Ht Hi) ND). rewrite Hv in V'. rewrite (VID i v d V' Hd). exact (ID1 t x k i v Ht Hk Hv). }
  assert (CP : forall t x y n0, the_set p t = Some x -> n0 = length (g_disjs p) -> s_disjs y = seq n0 (length (s_disjs x)) ->
     (forall n i, nth_error (s_disjs x) n = Some i -> exists v, view_of p i = Some v /\ view_of p' (length (g_disjs p) + n) = Some (copy_view None v)) ->
     forall k i d, nth_error (s_disjs y) k = Some i -> the_disj p' i = Some d -> p_id (d_plain d) = Z.of_nat k).
  { intros t x y n0 Ht -> Ey CV k i d Hk Hd. rewrite Ey in Hk. assert (Lk : (k < length (s_disjs x))%nat). { rewrite <- (seq_length (length (s_disjs x)) (length (g_disjs p))). apply nth_error_Some. congruence. }
    assert (i = (length (g_disjs p) + k)%nat). { apply (nth_error_nth _ _ 0%nat) in Hk. rewrite seq_nth in Hk by exact Lk. lia. } subst i.
    destruct (nth_error (s_disjs x) k) as [i0|] eqn:Q; [|apply nth_error_None in Q; lia]. destruct (CV k i0 Q) as (v & V1 & V2). rewrite (VID _ _ _ V2 Hd). exact (ID1 t x k i0 v Ht Q V1). }
  intros x k i d Hs Hk Hd. destruct (the_set p s) as [x0|] eqn:P0.
  - destruct c as [tree P|i1 P|i1 j1 fits|i1 t b grow|i1 k1 j1 l1|i1 f|i1|i1| |s1|s1 t1|s1 i1|s1|s1];
      try (rewrite (S1 s) in Hs by (congruence || (cbn; tauto)); rewrite P0 in Hs; injection Hs as <-; exact (OLD s x0 k i d P0 Hk Hd)).
    + (* SAssign *) destruct (Nat.eq_dec s s1) as [->|Ne].
      * destruct O as (z & Z1 & Z2 & Z3). destruct (Nat.eq_dec s1 t1) as [->|Nt].
        -- assert (PP : p' = p) by (apply Z2; reflexivity). subst p'. exact (ID _ x k i d Hs Hk Hd).
        -- destruct (Z3 Nt) as [Z4 Z5]. rewrite Hs in Z4. injection Z4 as ->. exact (CP t1 z {| s_plain := s_plain z; s_disjs := seq (length (g_disjs p)) (length (s_disjs z)) |} _ Z1 eq_refl eq_refl Z5 k i d Hk Hd).
      * rewrite (S1 s) in Hs by (congruence || exact Ne). rewrite P0 in Hs. injection Hs as <-. exact (OLD s x0 k i d P0 Hk Hd).
    + (* SAdd *) destruct (Nat.eq_dec s s1) as [->|Ne].
      * destruct O as (z & v & Z1 & Z2 & Z3 & Z4). rewrite Hs in Z3. injection Z3 as ->. cbn [s_disjs] in Hk.
        destruct (Nat.lt_ge_cases k (length (s_disjs z))) as [Q|Q].
        -- rewrite nth_error_app1 in Hk by exact Q. exact (OLD s1 z k i d Z1 Hk Hd).
        -- rewrite nth_error_app2 in Hk by exact Q. destruct (k - length (s_disjs z))%nat as [|m] eqn:R; [|destruct m; discriminate Hk]. cbn in Hk. injection Hk as <-. rewrite (VID _ _ _ Z4 Hd). cbn [fst]. change (Z.of_nat (length (s_disjs z)) = Z.of_nat k). f_equal. lia.
      * rewrite (S1 s) in Hs by (congruence || exact Ne). rewrite P0 in Hs. injection Hs as <-. exact (OLD s x0 k i d P0 Hk Hd).
    + (* SSetupAsNew *) destruct (Nat.eq_dec s s1) as [->|Ne].
      * cbn [outcome] in O. rewrite Hs in O. injection O as ->. destruct k; discriminate Hk.
      * rewrite (S1 s) in Hs by (congruence || exact Ne). rewrite P0 in Hs. injection Hs as <-. exact (OLD s x0 k i d P0 Hk Hd).
  - assert (Y : the_set p' s <> None) by congruence. destruct (S2 s P0 Y) as [->|[t ->]].
    + cbn [exec] in E. injection E as <-. rewrite set_app in Hs. destruct (Nat.eqb_spec (length (g_sets p)) s); [|congruence]. injection Hs as <-. destruct k; discriminate Hk.
    + cbn [exec] in E. destruct O as (z & Z1 & Z2 & Z3). rewrite Z1 in E. destruct (clone_each p (s_disjs z)) as [[p1 l]|] eqn:CE; [|discriminate]. injection E as E.
      assert (s = length (g_sets p)). { rewrite <- E in Hs. rewrite set_app in Hs. destruct (Nat.eqb_spec (length (g_sets p)) s); [auto|congruence]. } subst s.
      rewrite Hs in Z2. injection Z2 as ->. exact (CP t z {| s_plain := s_plain z; s_disjs := seq (length (g_disjs p)) (length (s_disjs z)) |} _ Z1 eq_refl eq_refl Z3 k i d Hk Hd).
Qed.
Print Assumptions ids_stay.
(** Then both ways to look up a disjunction agree: by place (not negative) and by id. *)
Theorem lookup p s x : history p -> the_set p s = Some x -> ids_are_positions p s -> forall n, 0 <= n ->
  getDisjunctionById p x n = getDisjunction x n /\ (n < Z.of_nat (length (s_disjs x)) -> exists i, nth_error (s_disjs x) (Z.to_nat n) = Some i /\ getDisjunctionById p x n = Some (Some i)) /\
  (Z.of_nat (length (s_disjs x)) <= n -> getDisjunctionById p x n = Some None).
Proof.
  intros H X ID n Hn. destruct (not_shared p H) as (_ & _ & LV).
  assert (G : forall l m, (forall k i, nth_error l k = Some i -> exists d, the_disj p i = Some d /\ p_id (d_plain d) = Z.of_nat (m + k)) ->
     findId p l n = if (n <? Z.of_nat m)%Z then Some None else Some (nth_error l (Z.to_nat n - m))).
  { induction l as [|i r IH]; intros m Hl.
    - cbn [findId]. destruct (n <? Z.of_nat m); [reflexivity|]. destruct (Z.to_nat n - m)%nat; reflexivity.
    - destruct (Hl 0%nat i eq_refl) as (d & D1 & D2). cbn [findId]. rewrite D1, D2. rewrite (IH (S m)); [|intros k j Hk; destruct (Hl (S k) j Hk) as (e & E1 & E2); exists e; split; [exact E1|]; rewrite E2; f_equal; lia].
      destruct (Z.eqb_spec (Z.of_nat (m + 0)) n) as [Q|Q].
      + destruct (Z.ltb_spec n (Z.of_nat m)); [lia|]. replace (Z.to_nat n - m)%nat with 0%nat by lia. reflexivity.
      + destruct (Z.ltb_spec n (Z.of_nat m)); destruct (Z.ltb_spec n (Z.of_nat (S m))); try lia; [reflexivity|]. replace (Z.to_nat n - m)%nat with (S (Z.to_nat n - S m)) by lia. reflexivity. }
  assert (GG : getDisjunctionById p x n = Some (nth_error (s_disjs x) (Z.to_nat n))).
  { unfold getDisjunctionById. rewrite (G (s_disjs x) 0%nat).
    - destruct (Z.ltb_spec n (Z.of_nat 0)); [lia|]. now rewrite Nat.sub_0_r.
    - intros k i Hk. destruct (the_disj p i) as [d|] eqn:D; [|exfalso; exact (proj2 (LV s x i X (nth_error_In _ _ Hk)) D)]. exists d. split; [reflexivity|]. exact (ID x k i d X Hk D). }
  split; [|split].
  - rewrite GG. unfold getDisjunction. destruct (Z.ltb_spec n (Z.of_nat (length (s_disjs x)))); [destruct (Z.ltb_spec n 0); [lia|reflexivity]|]. f_equal. apply nth_error_None. lia.
  - intros L. rewrite GG. destruct (nth_error (s_disjs x) (Z.to_nat n)) as [i|] eqn:Q; [eauto|]. apply nth_error_None in Q. lia.
  - intros L. rewrite GG. f_equal. apply nth_error_None. lia.
Qed.
Print Assumptions lookup.
(** A negative place is not NULL but undefined behaviour. *)
Theorem negative_index_refuted x n : n < 0 -> getDisjunction x n = None.
Proof. intros H. unfold getDisjunction. destruct (Z.ltb_spec n (Z.of_nat (length (s_disjs x)))); [|lia]. destruct (Z.ltb_spec n 0); [reflexivity|lia]. Qed.
Print Assumptions negative_index_refuted.
(** The number of rounds of a tree is not copied, and no constructor writes it: reading it from a copy or a new object is reading
    memory never written. *)
Theorem rounds_refuted p i P p' pl ts r d n : history p -> exec p (DCopy i P) = Some p' -> view_of p i = Some (pl, ts) -> p_own pl = Tree r d (Some n) ->
  exists pl', view_of p' (length (g_disjs p)) = Some (pl', ts) /\ p_own pl' = Tree r d None /\ view_of p' (length (g_disjs p)) <> view_of p i.
Proof.
  intros H E V O. destruct (copy_equal p i P p' pl ts H E V) as [_ C]. eexists. split; [exact C|].
  assert (X : p_own (set_rounds None (match P with Some q => set_params q pl | None => pl end)) = Tree r d None) by (destruct P; cbn; rewrite O; reflexivity).
  split; [exact X|]. rewrite C, V. intros Z. injection Z as Z. rewrite Z in X. rewrite O in X. discriminate.
Qed.
Print Assumptions rounds_refuted.
Theorem rounds_new_refuted p P p' : exec p (DNew true P) = Some p' -> exists pl, view_of p' (length (g_disjs p)) = Some (pl, []) /\ p_own pl = Tree root_new data_new None.
Proof.
  intros E. cbn [exec] in E. injection E as <-. exists (plain_new true P). split; [|reflexivity]. unfold view_of.
  change (the_disj {| g_heap := g_heap p; g_disjs := g_disjs p ++ [Some {| d_plain := plain_new true P; d_terms := [] |}]; g_sets := g_sets p; g_mine := length (g_disjs p) :: g_mine p |} (length (g_disjs p)))
    with (at_ (g_disjs p ++ [Some {| d_plain := plain_new true P; d_terms := [] |}]) (length (g_disjs p))). rewrite at_app, Nat.eqb_refl. reflexivity.
Qed.
Print Assumptions rounds_new_refuted.

(** ** A concrete program: a tree with two terms is copied, added twice to a set, the set copied, and everything destroyed *)
Fixpoint run (p : prog) (cs : list cmd) : option prog := match cs with [] => Some p | c :: r => match exec p c with Some q => run q r | None => None end end.
Definition after (p : prog) (cs : list cmd) : prog := match run p cs with Some q => q | None => p end.
Definition tp (v : Z) : tplain := {| t_obj := inject_Z v; t_var := [v]; t_bound := [0]; t_value := [1%Q]; t_feasible := true; t_ineqs := [] |}.
Definition ex1 : list cmd := [DNew true None; DAddTerm 0 (tp 1) (Some [1; 3]) true; DAddTerm 0 (tp 2) (Some [2; 3]) true; DAddTerm 0 (tp 3) None false; DCopy 0 None].
Definition ex2 : list cmd := [SNew; SAdd 0 0; SAdd 0 1; SCopy 0].
Definition ex3 : list cmd := [DSetupAsNew 1; DDestroy 0; SDestroy 0; DDestroy 1; SDestroy 1].
Fixpoint allowed_run (p : prog) (cs : list cmd) : Prop := match cs with [] => True | c :: r => allowed p c /\ ~ drops p c /\ exists q, exec p c = Some q /\ allowed_run q r end.
Lemma careful_run cs : forall p, careful p -> allowed_run p cs -> careful (after p cs).
Proof.
  induction cs as [|c r IH]; intros p C A; [exact C|]. destruct A as (A & D & q & E & R). assert (Cq := c_step _ _ _ C A D E). assert (X := IH q Cq R). unfold after in *. cbn [run]. rewrite E.
  clear - X R. revert X. destruct (run q r) eqn:Q; [auto|]. exfalso. revert q R Q. induction r as [|c r IH]; intros q R Q; [discriminate|]. destruct R as (_ & _ & q2 & E & R). cbn [run] in Q. rewrite E in Q. exact (IH q2 R Q).
Qed.
Ltac step1 := split; [first [exact Logic.I | (split; vm_compute; discriminate) | (vm_compute; discriminate) | (vm_compute; tauto)]|split; [first [exact (fun H => H) | vm_compute; tauto]|eexists; split; [vm_compute; reflexivity|]]].
Example ex_careful1 : careful (after prog0 ex1).
Proof. apply careful_run; [constructor|]. unfold ex1. cbn [allowed_run]. do 5 step1. exact Logic.I. Qed.
Example ex_copy : let p := after prog0 ex1 in
  view_of p 1 = view_of p 0 /\ (exists pl ts, view_of p 0 = Some (pl, ts) /\ map snd ts = [Some [1; 3]; Some [2; 3]; None]) /\ option_map d_terms (the_disj p 1) <> option_map d_terms (the_disj p 0).
Proof. cbv zeta. split; [vm_compute; reflexivity|]. split; [eexists; eexists; split; vm_compute; reflexivity|]. vm_compute. discriminate. Qed.
Example ex_careful2 : careful (after prog0 (ex1 ++ ex2)).
Proof. apply careful_run; [constructor|]. unfold ex1, ex2. cbn [allowed_run app]. do 9 step1. exact Logic.I. Qed.
Example ex_sets : let p := after prog0 (ex1 ++ ex2) in
  set_view_of p 1 = set_view_of p 0 /\ (exists pl vs, set_view_of p 0 = Some (pl, vs) /\ length vs = 2%nat) /\ option_map s_disjs (the_set p 0) = Some [2; 3]%nat /\ option_map s_disjs (the_set p 1) = Some [4; 5]%nat /\
  option_map (fun v => p_id (fst v)) (view_of p 3) = Some 1 /\ length (filter (fun c => match c with Some _ => true | None => false end) (g_heap p)) = 12%nat.
Proof. cbv zeta. split; [vm_compute; reflexivity|]. split; [eexists; eexists; split; vm_compute; reflexivity|]. repeat (split; [vm_compute; reflexivity|]). vm_compute. reflexivity. Qed.
Example ex_careful3 : careful (after prog0 (ex1 ++ ex2 ++ ex3)).
Proof. apply careful_run; [constructor|]. unfold ex1, ex2, ex3. cbn [allowed_run app]. do 14 step1. exact Logic.I. Qed.
Example ex_released : let p := after prog0 (ex1 ++ ex2 ++ ex3) in g_mine p = [] /\ (forall s, the_set p s = None) /\ length (g_heap p) = 15%nat.
Proof.
  cbv zeta. split; [vm_compute; reflexivity|]. split; [|vm_compute; reflexivity]. intros [|[|[|s]]]; vm_compute; reflexivity.
Qed.
(** The same set assigned to another that holds a disjunction: that one is lost. *)
Example ex_dropped : let p := after prog0 (ex1 ++ ex2 ++ [SNew; SAdd 2 0]) in
  careful p /\ allowed p (SAssign 2 0) /\ (exists q, exec p (SAssign 2 0) = Some q) /\ option_map s_disjs (the_set p 2) = Some [6%nat].
Proof.
  cbv zeta. split; [|split; [split; vm_compute; discriminate|split; [eexists; vm_compute; reflexivity|vm_compute; reflexivity]]].
  apply careful_run; [constructor|]. unfold ex1, ex2. cbn [allowed_run app]. do 11 step1. exact Logic.I.
Qed.
