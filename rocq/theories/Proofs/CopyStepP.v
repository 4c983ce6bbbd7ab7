(** One command of a program on disjunctions (C83). *)
From Verif Require Import Spec.CopySpec Proofs.CopiesP.
From Coq Require Import Permutation.

Definition olists (o : option dset) : list nat := match o with Some x => s_disjs x | None => [] end.
Definition inset (l : list (option dset)) : list nat := flat_map olists l.
Definition kept (p : prog) : list nat := g_mine p ++ inset (g_sets p).
Definition inv (p : prog) : Prop := owned (g_heap p) (allb (g_disjs p)) /\ NoDup (kept p) /\ forall i, In i (kept p) -> the_disj p i <> None.
(** What a command leaves alone: [W] written, [D] deleted. *)
Definition framed (p p' : prog) (W D : nat -> Prop) : Prop :=
  (forall k, the_disj p k <> None -> ~ W k -> ~ D k -> view_of p' k = view_of p k) /\
  (forall k, the_disj p k <> None -> (the_disj p' k = None <-> D k)) /\
  (length (g_disjs p) <= length (g_disjs p'))%nat /\ (forall k, (k < length (g_disjs p))%nat -> the_disj p k = None -> the_disj p' k = None) /\
  (forall k, In k (kept p') -> In k (kept p) \/ (length (g_disjs p) <= k)%nat) /\
  (forall k, (length (g_disjs p) <= k)%nat -> the_disj p' k <> None -> In k (kept p')).
Lemma the_lt p i : the_disj p i <> None -> (i < length (g_disjs p))%nat.
Proof. intros H. destruct (the_disj p i) eqn:E; [|congruence]. exact (at_lt _ _ _ E). Qed.
Lemma view_some p i : the_disj p i <> None -> exists v, view_of p i = Some v.
Proof. unfold view_of. destruct (the_disj p i); [eauto|congruence]. Qed.
Lemma inset_split l s x : nth_error l s = Some (Some x) -> exists F, Permutation (inset l) (s_disjs x ++ F) /\
  (forall y, Permutation (inset (put l s y)) (s_disjs y ++ F)) /\ Permutation (inset (kill l s)) F.
Proof.
  intros H. destruct (nth_error_split _ _ H) as (l1 & l2 & -> & <-). exists (inset l1 ++ inset l2). split; [|split].
  - unfold inset. rewrite flat_map_app. cbn [flat_map olists]. rewrite !app_assoc. apply Permutation_app_tail, Permutation_app_comm.
  - intros y. rewrite put_at. unfold inset. rewrite flat_map_app. cbn [flat_map olists]. rewrite !app_assoc. apply Permutation_app_tail, Permutation_app_comm.
  - rewrite kill_at. unfold inset. rewrite flat_map_app. cbn [flat_map olists app]. apply Permutation_refl.
Qed.
Lemma the_set_nth p s x : the_set p s = Some x -> nth_error (g_sets p) s = Some (Some x).
Proof. unfold the_set. destruct (nth_error (g_sets p) s); intros; congruence. Qed.
Lemma in_kept_set p s x i : the_set p s = Some x -> In i (s_disjs x) -> In i (kept p).
Proof. intros H K. apply the_set_nth, nth_error_In in H. apply in_app_iff. right. apply in_flat_map. exists (Some x). auto. Qed.
Lemma kept_reach p i : In i (kept p) <-> reachable p i.
Proof.
  unfold kept, reachable. rewrite in_app_iff. split; (intros [H|H]; [now left|right]).
  - apply in_flat_map in H. destruct H as ([x|] & H1 & H2); [|destruct H2]. apply In_nth_error in H1. destruct H1 as [s H1]. exists s, x. split; [unfold the_set; now rewrite H1|exact H2].
  - destruct H as (s & x & H1 & H2). apply in_flat_map. exists (Some x). split; [|exact H2]. exact (nth_error_In _ _ (the_set_nth _ _ _ H1)).
Qed.

(** A disjunction is changed in place. *)
Lemma shape_put p i d h' d' : inv p -> the_disj p i = Some d -> tr (g_heap p) (bases (d_terms d)) h' (bases (d_terms d')) ->
  inv (set_disj p h' i d') /\ framed p (set_disj p h' i d') (fun k => k = i) (fun _ => False) /\
  view_of (set_disj p h' i d') i = Some (d_plain d', map (view_term h') (d_terms d')).
Proof.
  intros (O & N & K) E T. destruct (own_put _ _ _ _ _ d' O E T) as [O1 W1]. assert (Li := at_lt _ _ _ E).
  assert (S1 : forall k, the_disj (set_disj p h' i d') k = if Nat.eqb i k then Some d' else the_disj p k) by (intros k; exact (at_put _ _ _ _ Li)).
  split; [|split].
  - split; [exact O1|]. split; [exact N|]. intros k Hk. rewrite S1. destruct (Nat.eqb i k); [discriminate|exact (K k Hk)].
  - split; [intros k H1 H2 _; exact (W1 k H2)|]. split; [|split; [cbn; rewrite put_len; lia|split; [|split]]].
    + intros k H1. rewrite S1. destruct (Nat.eqb i k); split; congruence || tauto.
    + intros k H1 H2. rewrite S1. destruct (Nat.eqb_spec i k); [|exact H2]. subst. congruence.
    + intros k H1. left. exact H1.
    + intros k H1 H2. rewrite S1 in H2. destruct (Nat.eqb_spec i k); [lia|]. apply the_lt in H2. lia.
  - unfold view_of. rewrite S1, Nat.eqb_refl. reflexivity.
Qed.
(** A disjunction is made; who keeps it is said by [M]. *)
Lemma shape_app p h' d' ss mine : inv p -> tr (g_heap p) [] h' (bases (d_terms d')) ->
  Permutation (mine ++ inset ss) (length (g_disjs p) :: kept p) ->
  let p' := {| g_heap := h'; g_disjs := g_disjs p ++ [Some d']; g_sets := ss; g_mine := mine |} in
  inv p' /\ framed p p' (fun _ => False) (fun _ => False) /\ view_of p' (length (g_disjs p)) = Some (d_plain d', map (view_term h') (d_terms d')).
Proof.
  intros (O & N & K) T P p'. destruct (own_app _ _ _ d' O T) as [O1 W1].
  assert (S1 : forall k, the_disj p' k = if Nat.eqb (length (g_disjs p)) k then Some d' else the_disj p k) by (intros k; exact (at_app _ _ _)).
  assert (K1 : forall k, In k (kept p') <-> k = length (g_disjs p) \/ In k (kept p)).
  { intros k. split; intros H.
    - assert (X := Permutation_in k P H). cbn in X. destruct X; [left; congruence|auto].
    - apply (Permutation_in k (Permutation_sym P)). cbn. destruct H; [left; congruence|auto]. }
  split; [|split].
  - split; [exact O1|]. split.
    + apply (Permutation_NoDup (Permutation_sym P)). constructor; [|exact N]. intros H. apply (K _) in H. apply the_lt in H. lia.
    + intros k Hk. rewrite S1. destruct (Nat.eqb_spec (length (g_disjs p)) k); [discriminate|]. apply K1 in Hk. destruct Hk as [->|Hk]; [congruence|exact (K k Hk)].
  - split; [intros k H1 _ _; apply W1; apply the_lt in H1; lia|]. split; [|split; [cbn; rewrite app_length; lia|split; [|split]]].
    + intros k H1. rewrite S1. destruct (Nat.eqb (length (g_disjs p)) k); split; congruence || tauto.
    + intros k H1 H2. rewrite S1. destruct (Nat.eqb_spec (length (g_disjs p)) k); [lia|exact H2].
    + intros k H1. apply K1 in H1. destruct H1 as [->|H1]; [right; lia|auto].
    + intros k H1 H2. apply K1. rewrite S1 in H2. destruct (Nat.eqb_spec (length (g_disjs p)) k); [left; congruence|]. apply the_lt in H2. lia.
  - unfold view_of. rewrite S1, Nat.eqb_refl. reflexivity.
Qed.
(** Only sets change. *)
Lemma shape_sets p ss : inv p -> NoDup (g_mine p ++ inset ss) -> (forall k, In k (inset ss) -> In k (kept p)) ->
  let p' := {| g_heap := g_heap p; g_disjs := g_disjs p; g_sets := ss; g_mine := g_mine p |} in
  inv p' /\ framed p p' (fun _ => False) (fun _ => False).
Proof.
  intros (O & N & K) N' S p'. assert (K1 : forall k, In k (kept p') -> In k (kept p)). { intros k H. apply in_app_iff in H. destruct H; [apply in_app_iff; auto|auto]. }
  split; [split; [exact O|split; [exact N'|]]; intros k H; exact (K k (K1 k H))|].
  split; [auto|]. split; [|split; [auto|split; [auto|split; [auto|]]]].
  - intros k H. change (the_disj p' k) with (the_disj p k). split; congruence || tauto.
  - intros k H1 H2. change (the_disj p' k) with (the_disj p k) in H2. apply the_lt in H2. lia.
Qed.

(** A term is written. *)
Lemma put_term_split ts k x : nth_error ts k = Some x -> exists a b, ts = a ++ x :: b /\ length a = k /\ forall y, put_term ts k y = a ++ y :: b.
Proof.
  intros H. destruct (nth_error_split _ _ H) as (a & b & -> & <-). exists a, b. split; [reflexivity|]. split; [reflexivity|]. intros y. induction a; cbn; [reflexivity|]. now rewrite IHa.
Qed.
Lemma firstn_mid {A} (a : list A) x b : firstn (length a) (a ++ x :: b) = a.
Proof. rewrite firstn_app, Nat.sub_diag, firstn_all. apply app_nil_r. Qed.
Lemma skipn_mid {A} (a : list A) x b : skipn (S (length a)) (a ++ x :: b) = b.
Proof. induction a; [reflexivity|exact IHa]. Qed.
Lemma bases_mid a x b : Permutation (bases (a ++ x :: b)) (bases [x] ++ bases (a ++ b)).
Proof. rewrite !bases_app, bases_cons, <- bases1. rewrite !app_assoc. apply Permutation_app_tail, Permutation_app_comm. Qed.
Lemma away_in h O ts y : away h O ts -> In y ts -> away h O [y].
Proof. intros A H a K. apply A. rewrite bases1 in K. apply in_flat_map. exists y. auto. Qed.
Lemma term_assign_ok h ts k x y : good h ts -> nth_error ts k = Some x -> away h (bases [x]) [y] ->
  exists h' t, term_initialize x (Some y) h = Some (h', t) /\ tr h (bases ts) h' (bases (put_term ts k t)) /\
    map (view_term h') (put_term ts k t) = firstn k (map (view_term h) ts) ++ view_term h y :: skipn (S k) (map (view_term h) ts).
Proof.
  intros [N L] H A. destruct (put_term_split _ _ _ H) as (a & b & -> & <- & R).
  assert (P := bases_mid a x b). assert (N1 := Permutation_NoDup P N). apply nodup_app in N1. destruct N1 as (N1 & N2 & N3).
  assert (L1 : forall c, In c (bases [x] ++ bases (a ++ b)) -> live h c) by (intros c Hc; apply L, (Permutation_in c (Permutation_sym P)), Hc).
  destruct (term_initialize_ok h x y) as (h' & t & E & T & V); [intros c Hc; apply L1, in_app_iff; auto|exact A|]. exists h', t. split; [exact E|]. rewrite R.
  assert (W : away h (bases [x]) (a ++ b)) by (intros c Hc; split; [apply L1, in_app_iff; auto|intros K; exact (N3 c K Hc)]).
  split.
  - assert (T2 := tr_frame _ _ _ _ (bases (a ++ b)) T N2 W). destruct T2 as (X1 & X2 & X3). assert (T2 : tr h (bases [x] ++ bases (a ++ b)) h' (bases [t] ++ bases (a ++ b))) by (split; auto).
    refine (tr_perm _ _ _ _ _ _ _ _ _ T2).
    + intros c. split; apply Permutation_in; [apply Permutation_sym|]; exact P.
    + intros c. split; apply Permutation_in; [apply Permutation_sym|]; exact (bases_mid a t b).
    + exact (Permutation_NoDup (Permutation_sym (bases_mid a t b)) X2).
  - assert (Wa : away h (bases [x]) a) by (intros c Hc; apply W; rewrite bases_app, in_app_iff; auto).
    assert (Wb : away h (bases [x]) b) by (intros c Hc; apply W; rewrite bases_app, in_app_iff; auto).
    rewrite !map_app. cbn [map]. rewrite (view_keep _ _ _ _ _ T Wa), (view_keep _ _ _ _ _ T Wb), V.
    assert (LL : length (map (view_term h) a) = length a) by apply map_length.
    rewrite <- LL at 1 2. rewrite firstn_mid, skipn_mid. reflexivity.
Qed.

(** A local term with its basis is appended, and the local term destroyed. *)
Lemma add_term_ok h ts t b grow : good h ts ->
  let '(h1, ba) := match b with Some x => (h ++ [Some x], Some (length h)) | None => (h, None) end in
  let local := {| t_plain := t; t_basis := ba |} in
  exists h' r, bind (vec_push grow ts local) (fun ts => bind (term_destroy local) (fun _ => ret ts)) h1 = Some (h', r) /\
    tr h (bases ts) h' (bases r) /\ map (view_term h') r = map (view_term h) ts ++ [(t, b)].
Proof.
  intros G.
  assert (X : exists h1 ba, match b with Some x => (h ++ [Some x], Some (length h)) | None => (h, None) end = (h1, ba) /\ tr h [] h1 (olist ba) /\ match ba with Some a => cell h1 a | None => None end = b).
  { destruct b as [x|].
    - exists (h ++ [Some x]), (Some (length h)). split; [reflexivity|]. split; [|apply cell_new]. cbn [olist].
      split; [rewrite app_length; lia|]. split; [constructor; [intros []|constructor]|]. split.
      + intros c [<-|[]]. split; [unfold live; rewrite cell_new; discriminate|right; lia].
      + split; [intros c H N; now apply cell_app|]. intros c H. destruct (Nat.eq_dec (length h) c); [left; now left|right]. split; [|intros []].
        apply live_lt in H. rewrite app_length in H. cbn in H. lia.
    - exists h, None. split; [reflexivity|]. split; [|reflexivity]. apply tr_refl; [constructor|intros ? []]. }
  destruct X as (h1 & ba & -> & T1 & V1). set (local := {| t_plain := t; t_basis := ba |}). cbv zeta. change (olist ba) with (olist (t_basis local)) in T1. rewrite <- (bases1 local) in T1.
  assert (A0 : away h [] ts) by (intros a H; split; [exact (proj2 G a H)|intros []]).
  destruct (good_keep _ _ _ _ _ T1 G A0) as [G1 A1].
  assert (AL : away h1 (bases ts) [local]).
  { intros a Ha. destruct T1 as (_ & _ & L & _). split; [exact (proj1 (L a Ha))|]. intros K. exact (proj2 (A1 a K) Ha). }
  destruct (vec_push_ok grow ts local h1 G1 AL) as (h2 & r & E2 & T2 & V2).
  assert (AL2 := away_keep _ _ _ _ _ T2 AL).
  destruct (term_destroy_ok h2 local (fun a H => proj1 (AL2 a H))) as (h3 & E3 & T3). exists h3, r. split; [unfold bind; rewrite E2; unfold bind in E3; rewrite E3; reflexivity|].
  (* tr h (ts) h1 (local ++ ts) ; tr h1 (ts ++ local) h2 (r ++ local) ; tr h2 (local ++ r) h3 r *)
  assert (N1 : NoDup (bases [local])) by exact (proj1 (proj2 T1)).
  assert (F1 : tr h (bases ts) h1 (bases [local] ++ bases ts)) by exact (tr_first _ _ _ _ ts T1 G A0).
  assert (F2 : tr h1 (bases ts ++ bases [local]) h2 (bases r ++ bases [local])) by (apply tr_frame; [exact T2|exact N1|exact AL]).
  assert (NR : NoDup (bases r ++ bases [local])) by exact (proj1 (proj2 F2)).
  assert (F3 : tr h2 (bases [local] ++ bases r) h3 (bases r)).
  { apply tr_drop; [exact T3|exact (proj1 (proj2 T2))|]. intros a Ha. destruct T2 as (_ & _ & L & _). split; [exact (proj1 (L a Ha))|]. intros K. exact (proj2 (AL2 a K) Ha). }
  split.
  - apply (tr_trans _ _ _ _ _ _ F1). apply (tr_trans _ (bases [local] ++ bases ts) h2 (bases r ++ bases [local])).
    + refine (tr_perm _ _ _ _ _ _ _ (fun a => iff_refl _) NR F2). intros a. rewrite !in_app_iff. tauto.
    + refine (tr_perm _ _ _ _ _ _ _ (fun a => iff_refl _) (proj1 (proj2 T2)) F3). intros a. rewrite !in_app_iff. tauto.
  - assert (AR : away h2 (bases [local]) r). { intros a Ha. destruct T2 as (_ & _ & L & _). split; [exact (proj1 (L a Ha))|]. intros K. exact (proj2 (AL2 a K) Ha). }
    rewrite (view_keep _ _ _ _ _ T3 AR), V2, map_app, (view_keep _ _ _ _ _ T1 A0). cbn [map]. unfold view_term at 2, local. cbn [t_plain t_basis]. now rewrite V1.
Qed.

(** ** Every command *)
Definition outcome (p : prog) (c : cmd) (p' : prog) : Prop :=
  match c with
  | DNew tree P => view_of p' (length (g_disjs p)) = Some (plain_new tree P, [])
  | DCopy i P => exists v, view_of p i = Some v /\ view_of p' (length (g_disjs p)) = Some (copy_view P v)
  | DAssign i j _ => exists v w, view_of p i = Some v /\ view_of p j = Some w /\ (i <> j -> view_of p' i = Some (plain_copied (fst v) (fst w) None, snd w)) /\ (i = j -> p' = p)
  | DAddTerm i t b _ => exists v, view_of p i = Some v /\ view_of p' i = Some (fst v, snd v ++ [(t, b)])
  | DTermAssign i k j l => exists v w t, view_of p i = Some v /\ view_of p j = Some w /\ nth_error (snd w) l = Some t /\
      view_of p' i = Some (fst v, firstn k (snd v) ++ t :: skipn (S k) (snd v))
  | DEdit i f => exists v, view_of p i = Some v /\ view_of p' i = Some (f (fst v), snd v)
  | DSetupAsNew i => exists v, view_of p i = Some v /\ view_of p' i = Some (plain_reset (fst v), [])
  | DDestroy i => the_disj p' i = None
  | SNew => the_set p' (length (g_sets p)) = Some {| s_plain := splain_new; s_disjs := [] |}
  | SCopy s => exists x, the_set p s = Some x /\ the_set p' (length (g_sets p)) = Some {| s_plain := s_plain x; s_disjs := seq (length (g_disjs p)) (length (s_disjs x)) |} /\
      forall n i, nth_error (s_disjs x) n = Some i -> exists v, view_of p i = Some v /\ view_of p' (length (g_disjs p) + n) = Some (copy_view None v)
  | SAssign s t => exists x, the_set p t = Some x /\ (s = t -> p' = p) /\ (s <> t ->
      the_set p' s = Some {| s_plain := s_plain x; s_disjs := seq (length (g_disjs p)) (length (s_disjs x)) |} /\
      forall n i, nth_error (s_disjs x) n = Some i -> exists v, view_of p i = Some v /\ view_of p' (length (g_disjs p) + n) = Some (copy_view None v))
  | SAdd s i => exists x v, the_set p s = Some x /\ view_of p i = Some v /\
      let w := set_id (Z.of_nat (length (s_disjs x))) (set_rounds None (fst v)) in
      the_set p' s = Some {| s_plain := set_values (s_plain x) w; s_disjs := s_disjs x ++ [length (g_disjs p)] |} /\ view_of p' (length (g_disjs p)) = Some (w, snd v)
  | SSetupAsNew s => the_set p' s = Some {| s_plain := splain_new; s_disjs := [] |}
  | SDestroy s => the_set p' s = None
  end.
Definition step_ok (p : prog) (c : cmd) (p' : prog) : Prop :=
  inv p' /\ framed p p' (writes c) (deletes p c) /\ outcome p c p' /\
  (forall s, the_set p s <> None -> ~ writes_set c s -> the_set p' s = the_set p s) /\
  (forall s, the_set p s = None -> the_set p' s <> None -> c = SNew \/ exists t, c = SCopy t) /\
  (~ drops p c -> forall k, In k (kept p) -> In k (kept p') \/ deletes p c k).
Lemma set_put p s x t : the_set p s <> None -> the_set (put_set p s x) t = if Nat.eqb s t then Some x else the_set p t.
Proof.
  intros H. unfold the_set, put_set in *. cbn [g_sets]. rewrite nth_put. destruct (Nat.eqb_spec s t); [|reflexivity]. subst t. destruct (nth_error (g_sets p) s); [reflexivity|congruence].
Qed.
Lemma set_kill p s t h d m : the_set {| g_heap := h; g_disjs := d; g_sets := kill (g_sets p) s; g_mine := m |} t = if Nat.eqb s t then None else the_set p t.
Proof. unfold the_set. cbn [g_sets]. rewrite nth_kill. destruct (Nat.eqb s t); [destruct (nth_error (g_sets p) t); reflexivity|reflexivity]. Qed.
Lemma set_app p x t h d m : the_set {| g_heap := h; g_disjs := d; g_sets := g_sets p ++ [Some x]; g_mine := m |} t = if Nat.eqb (length (g_sets p)) t then Some x else the_set p t.
Proof.
  unfold the_set. cbn [g_sets]. destruct (Nat.eqb_spec (length (g_sets p)) t) as [<-|N].
  - rewrite nth_error_app2 by lia. now rewrite Nat.sub_diag.
  - destruct (Nat.lt_ge_cases t (length (g_sets p))); [now rewrite nth_error_app1|]. rewrite (proj2 (nth_error_None (g_sets p ++ [Some x]) t)), (proj2 (nth_error_None (g_sets p) t)); [reflexivity|lia|rewrite app_length; cbn; lia].
Qed.
Lemma set_lt p s : the_set p s <> None -> (s < length (g_sets p))%nat.
Proof. unfold the_set. intros H. apply nth_error_Some. destruct (nth_error (g_sets p) s); congruence. Qed.
Lemma framed_ext p p' (W W' D D' : nat -> Prop) : (forall k, W k <-> W' k) -> (forall k, D k <-> D' k) -> framed p p' W D -> framed p p' W' D'.
Proof.
  intros EW ED (A1 & A2 & A3 & A4 & A5 & A6). split; [intros k H1 H2 H3; apply A1; [exact H1|rewrite EW; exact H2|rewrite ED; exact H3]|]. split; [intros k H; rewrite <- ED; auto|auto].
Qed.
Lemma same_sets p p' c : g_sets p' = g_sets p -> (forall s, the_set p s <> None -> ~ writes_set c s -> the_set p' s = the_set p s) /\
  (forall s, the_set p s = None -> the_set p' s <> None -> c = SNew \/ exists t, c = SCopy t).
Proof. intros E. unfold the_set. rewrite E. split; [auto|]. intros s H K. congruence. Qed.
Lemma reflframe p W : framed p p W (fun _ => False).
Proof. split; [auto|]. split; [intros k H; split; congruence || tauto|]. split; [auto|]. split; [auto|]. split; [auto|]. intros k H K. apply the_lt in K. lia. Qed.
(** Copies of several disjunctions, kept by sets. *)
Lemma shape_many p l ss : inv p -> (forall i, In i l -> the_disj p i <> None) ->
  let n := length (g_disjs p) in
  NoDup (g_mine p ++ inset ss) -> (forall k, In k (g_mine p ++ inset ss) -> In k (kept p) \/ In k (seq n (length l))) -> (forall k, In k (seq n (length l)) -> In k (inset ss)) ->
  exists p1, clone_each p l = Some (p1, seq n (length l)) /\
    let p' := {| g_heap := g_heap p1; g_disjs := g_disjs p1; g_sets := ss; g_mine := g_mine p |} in
    inv p' /\ framed p p' (fun _ => False) (fun _ => False) /\ g_sets p1 = g_sets p /\ g_mine p1 = g_mine p /\
    (forall n i, nth_error l n = Some i -> exists v, view_of p i = Some v /\ view_of p' (length (g_disjs p) + n) = Some (copy_view None v)).
Proof.
  intros I L n N1 N2 N3. destruct (clone_each_ok l p (proj1 I) L) as (p1 & K1 & K2 & K3 & K4 & K5 & K6 & K7). exists p1. split; [exact K1|]. cbv zeta.
  set (p' := {| g_heap := g_heap p1; g_disjs := g_disjs p1; g_sets := ss; g_mine := g_mine p |}).
  assert (S1 : forall k, the_disj p' k = the_disj p1 k) by reflexivity.
  assert (S2 : forall k, view_of p' k = view_of p1 k) by reflexivity.
  assert (KL : forall k, In k (kept p') -> In k (kept p) \/ (n <= k < n + length l)%nat).
  { intros k H. destruct (N2 k H) as [X|X]; [auto|right]. apply in_seq in X. exact X. }
  assert (NEW : forall k, (n <= k < n + length l)%nat -> the_disj p' k <> None).
  { intros k H. rewrite S1. destruct (nth_error l (k - n)) as [i|] eqn:E; [|apply nth_error_None in E; lia]. destruct (K7 _ _ E) as (v & _ & V). fold n in V. replace (n + (k - n))%nat with k in V by lia.
    unfold view_of in V. destruct (the_disj p1 k); congruence. }
  destruct I as (O & N & K). split; [|split; [|split; [exact K3|split; [exact K4|exact K7]]]].
  - split; [exact K2|]. split; [exact N1|]. intros k H. destruct (KL k H) as [X|X]; [|exact (NEW k X)]. assert (Z := K k X). rewrite S1, (proj1 (K6 k (the_lt _ _ Z))). exact Z.
  - split; [intros k H _ _; rewrite S2; exact (proj2 (K6 k (the_lt _ _ H)))|]. split; [|split; [cbn; rewrite K5; lia|split; [|split]]].
    + intros k H. rewrite S1, (proj1 (K6 k (the_lt _ _ H))). split; congruence || tauto.
    + intros k H1 H2. rewrite S1, (proj1 (K6 k H1)). exact H2.
    + intros k H. destruct (KL k H); [auto|right; fold n; lia].
    + intros k H1 H2. apply the_lt in H2. cbn in H2. rewrite K5 in H2. apply in_app_iff. right. apply N3, in_seq. fold n. fold n in H1, H2. lia.
Qed.
Lemma kept_lt p k : inv p -> In k (kept p) -> (k < length (g_disjs p))%nat.
Proof. intros (_ & _ & K) H. exact (the_lt _ _ (K k H)). Qed.

Lemma step_all p c : inv p -> allowed p c -> exists p', exec p c = Some p' /\ step_ok p c p'.
Proof.
  intros I A. assert (II := I). destruct II as (O & N & K). destruct c as [tree P|i P|i j fits|i t b grow|i k j l|i f|i|i| |s|s t|s i|s|s]; cbn [allowed] in A.
  - (* DNew *)
    set (d' := {| d_plain := plain_new tree P; d_terms := [] |}).
    destruct (shape_app p (g_heap p) d' (g_sets p) (length (g_disjs p) :: g_mine p) I) as (I1 & F1 & V1); [apply tr_refl; [constructor|intros ? []]|apply Permutation_refl|].
    eexists. split; [reflexivity|]. split; [exact I1|]. split; [exact F1|]. split; [exact V1|]. destruct (same_sets p {| g_heap := g_heap p; g_disjs := g_disjs p ++ [Some d']; g_sets := g_sets p; g_mine := length (g_disjs p) :: g_mine p |} (DNew tree P) eq_refl) as [S1 S2].
    split; [exact S1|]. split; [exact S2|]. intros _ k H. left. right. exact H.
  - (* DCopy *)
    destruct (the_disj p i) as [d|] eqn:E; [|congruence]. assert (Ei : at_ (g_disjs p) i = Some d) by exact E.
    destruct (copy_ok d P (g_heap p) (all_away _ _ _ _ O Ei)) as (h & ts & C & T & V). rewrite copied_new in C.
    match type of C with _ = Some (_, ?x) => set (d' := x) in * end.
    destruct (shape_app p h d' (g_sets p) (length (g_disjs p) :: g_mine p) I T) as (I1 & F1 & V1); [apply Permutation_refl|].
    eexists. split; [cbn [exec]; rewrite E, C; reflexivity|]. split; [exact I1|]. split; [exact F1|]. split.
    + exists (d_plain d, map (view_term (g_heap p)) (d_terms d)). split; [exact (vw_at _ _ _ _ Ei)|]. rewrite V1. unfold copy_view. cbn [d' d_plain d_terms fst snd]. now rewrite V.
    + destruct (same_sets p {| g_heap := h; g_disjs := g_disjs p ++ [Some d']; g_sets := g_sets p; g_mine := length (g_disjs p) :: g_mine p |} (DCopy i P) eq_refl) as [S1 S2].
      split; [exact S1|]. split; [exact S2|]. intros _ k H. left. right. exact H.
  - (* DAssign *)
    destruct A as [A1 A2]. destruct (the_disj p i) as [d|] eqn:Ei; [|congruence]. destruct (the_disj p j) as [s|] eqn:Ej; [|congruence].
    assert (Vi : view_of p i = Some (d_plain d, map (view_term (g_heap p)) (d_terms d))) by exact (vw_at _ _ _ _ Ei).
    assert (Vj : view_of p j = Some (d_plain s, map (view_term (g_heap p)) (d_terms s))) by exact (vw_at _ _ _ _ Ej).
    destruct (Nat.eq_dec i j) as [->|Ne].
    + exists p. split; [cbn [exec]; rewrite Ej, Nat.eqb_refl; reflexivity|]. split; [exact I|]. split; [apply reflframe|]. split.
      * exists (d_plain d, map (view_term (g_heap p)) (d_terms d)), (d_plain s, map (view_term (g_heap p)) (d_terms s)). split; [exact Vi|]. split; [exact Vj|]. split; [congruence|auto].
      * destruct (same_sets p p (DAssign j j fits) eq_refl) as [S1 S2]. split; [exact S1|]. split; [exact S2|]. intros _ k H. now left.
    + destruct (initialize_ok fits d s None (g_heap p) (owned_good _ _ _ _ O Ei)) as (h & ts & C & T & V); [exact (others_away _ _ _ _ _ _ O Ei Ej Ne)|].
      match type of C with _ = Some (_, ?x) => set (d' := x) in * end.
      destruct (shape_put p i d h d' I Ei T) as (I1 & F1 & V1).
      eexists. split; [cbn [exec]; rewrite Ei, Ej, (proj2 (Nat.eqb_neq i j) Ne), C; reflexivity|]. split; [exact I1|]. split; [exact F1|]. split.
      * exists (d_plain d, map (view_term (g_heap p)) (d_terms d)), (d_plain s, map (view_term (g_heap p)) (d_terms s)). split; [exact Vi|]. split; [exact Vj|]. split; [|congruence].
        intros _. rewrite V1. cbn [d' d_plain d_terms fst snd]. now rewrite V.
      * destruct (same_sets p (set_disj p h i d') (DAssign i j fits) eq_refl) as [S1 S2]. split; [exact S1|]. split; [exact S2|]. intros _ k H. now left.
  - (* DAddTerm *)
    destruct (the_disj p i) as [d|] eqn:Ei; [|congruence]. assert (X := add_term_ok (g_heap p) (d_terms d) t b grow (owned_good _ _ _ _ O Ei)).
    destruct (match b with Some x => (g_heap p ++ [Some x], Some (length (g_heap p))) | None => (g_heap p, None) end) as [h1 ba] eqn:EB. cbv zeta in X. destruct X as (h & r & C & T & V).
    set (d' := {| d_plain := d_plain d; d_terms := r |}). destruct (shape_put p i d h d' I Ei T) as (I1 & F1 & V1).
    eexists. split; [cbn [exec]; rewrite Ei, EB, C; reflexivity|]. split; [exact I1|]. split; [exact F1|]. split.
    + exists (d_plain d, map (view_term (g_heap p)) (d_terms d)). split; [exact (vw_at _ _ _ _ Ei)|]. fold d'. rewrite V1. cbn [d' d_plain d_terms fst snd]. now rewrite V.
    + destruct (same_sets p (set_disj p h i d') (DAddTerm i t b grow) eq_refl) as [S1 S2]. split; [exact S1|]. split; [exact S2|]. intros _ k H. now left.
  - (* DTermAssign *)
    destruct A as [(d & Ei & Hk) (e & Ej & Hl)].
    destruct (nth_error (d_terms d) k) as [x|] eqn:Ex; [|apply nth_error_None in Ex; lia]. destruct (nth_error (d_terms e) l) as [y|] eqn:Ey; [|apply nth_error_None in Ey; lia].
    assert (Vi : view_of p i = Some (d_plain d, map (view_term (g_heap p)) (d_terms d))) by exact (vw_at _ _ _ _ Ei).
    assert (Vj : view_of p j = Some (d_plain e, map (view_term (g_heap p)) (d_terms e))) by exact (vw_at _ _ _ _ Ej).
    assert (Vy : nth_error (map (view_term (g_heap p)) (d_terms e)) l = Some (view_term (g_heap p) y)) by (rewrite nth_error_map, Ey; reflexivity).
    destruct (Nat.eqb i j && Nat.eqb k l) eqn:EQ.
    + apply andb_prop in EQ. destruct EQ as [Q1 Q2]. apply Nat.eqb_eq in Q1, Q2. subst j l. assert (e = d) by congruence. subst e.
      exists p. split; [cbn [exec]; rewrite Ei, Ex, !Nat.eqb_refl; reflexivity|]. split; [exact I|]. split; [apply reflframe|]. split.
      * exists (d_plain d, map (view_term (g_heap p)) (d_terms d)), (d_plain d, map (view_term (g_heap p)) (d_terms d)), (view_term (g_heap p) y). split; [exact Vi|]. split; [exact Vi|]. split; [exact Vy|].
        rewrite Vi. cbn [fst snd]. do 2 f_equal. clear - Vy. revert k Vy. generalize (map (view_term (g_heap p)) (d_terms d)) (view_term (g_heap p) y). induction l as [|z l IH]; intros t [|k] H; try discriminate H.
        -- injection H as ->. reflexivity.
        -- cbn. f_equal. exact (IH t k H).
      * destruct (same_sets p p (DTermAssign i k i k) eq_refl) as [S1 S2]. split; [exact S1|]. split; [exact S2|]. intros _ z H. now left.
    + assert (AW : away (g_heap p) (bases [x]) [y]).
      { destruct (Nat.eq_dec i j) as [<-|Ne].
        - assert (e = d) by congruence. subst e. rewrite Nat.eqb_refl in EQ. cbn [andb] in EQ. apply Nat.eqb_neq in EQ.
          destruct (owned_good _ _ _ _ O Ei) as [ND LV]. destruct (put_term_split _ _ _ Ex) as (a & b & Eab & La & _).
          assert (Hy : In y (a ++ b)).
          { rewrite Eab in Ey. destruct (Nat.lt_ge_cases l k) as [H|H].
            - rewrite nth_error_app1 in Ey by lia. apply nth_error_In in Ey. apply in_app_iff. auto.
            - rewrite nth_error_app2 in Ey by lia. destruct (l - length a)%nat eqn:Z; [lia|]. cbn in Ey. apply nth_error_In in Ey. apply in_app_iff. auto. }
          rewrite Eab in ND, LV. assert (P := bases_mid a x b). assert (N1 := Permutation_NoDup P ND). apply nodup_app in N1. destruct N1 as (_ & _ & N3).
          apply (away_in _ _ (a ++ b)); [|exact Hy]. intros c Hc. split; [apply LV, (Permutation_in c (Permutation_sym P)), in_app_iff; auto|]. intros Z. exact (N3 c Z Hc).
        - apply (away_in _ _ (d_terms e)); [|exact (nth_error_In _ _ Ey)]. apply (away_less _ (bases (d_terms d))); [|exact (others_away _ _ _ _ _ _ O Ei Ej Ne)].
          intros c Hc. rewrite bases1 in Hc. apply in_flat_map. exists x. split; [exact (nth_error_In _ _ Ex)|exact Hc]. }
      destruct (term_assign_ok (g_heap p) (d_terms d) k x y (owned_good _ _ _ _ O Ei) Ex AW) as (h & t & C & T & V).
      set (d' := {| d_plain := d_plain d; d_terms := put_term (d_terms d) k t |}). destruct (shape_put p i d h d' I Ei T) as (I1 & F1 & V1).
      eexists. split; [cbn [exec]; rewrite Ei, Ej, Ex, Ey, EQ, C; reflexivity|]. split; [exact I1|]. split; [exact F1|]. split.
      * exists (d_plain d, map (view_term (g_heap p)) (d_terms d)), (d_plain e, map (view_term (g_heap p)) (d_terms e)), (view_term (g_heap p) y). split; [exact Vi|]. split; [exact Vj|]. split; [exact Vy|].
        fold d'. rewrite V1. cbn [d' d_plain d_terms fst snd]. now rewrite V.
      * destruct (same_sets p (set_disj p h i d') (DTermAssign i k j l) eq_refl) as [S1 S2]. split; [exact S1|]. split; [exact S2|]. intros _ z H. now left.
  - (* DEdit *)
    destruct (the_disj p i) as [d|] eqn:Ei; [|congruence]. set (d' := {| d_plain := f (d_plain d); d_terms := d_terms d |}). destruct (owned_good _ _ _ _ O Ei) as [G1 G2].
    destruct (shape_put p i d (g_heap p) d' I Ei (tr_refl _ _ G1 G2)) as (I1 & F1 & V1).
    eexists. split; [cbn [exec]; rewrite Ei; reflexivity|]. split; [exact I1|]. split; [exact F1|]. split.
    + exists (d_plain d, map (view_term (g_heap p)) (d_terms d)). split; [exact (vw_at _ _ _ _ Ei)|exact V1].
    + destruct (same_sets p (set_disj p (g_heap p) i d') (DEdit i f) eq_refl) as [S1 S2]. split; [exact S1|]. split; [exact S2|]. intros _ z H. now left.
  - (* DSetupAsNew *)
    destruct (the_disj p i) as [d|] eqn:Ei; [|congruence]. destruct (setupAsNew_ok d (g_heap p) (owned_good _ _ _ _ O Ei)) as (h & C & T).
    set (d' := {| d_plain := plain_reset (d_plain d); d_terms := [] |}) in *. destruct (shape_put p i d h d' I Ei T) as (I1 & F1 & V1).
    eexists. split; [cbn [exec]; rewrite Ei, C; reflexivity|]. split; [exact I1|]. split; [exact F1|]. split.
    + exists (d_plain d, map (view_term (g_heap p)) (d_terms d)). split; [exact (vw_at _ _ _ _ Ei)|exact V1].
    + destruct (same_sets p (set_disj p h i d') (DSetupAsNew i) eq_refl) as [S1 S2]. split; [exact S1|]. split; [exact S2|]. intros _ z H. now left.
  - (* DDestroy *)
    assert (Hi : In i (kept p)) by (apply in_app_iff; auto). assert (Li := K i Hi). destruct (the_disj p i) as [d|] eqn:Ei; [|congruence].
    destruct (destroy_ok d (g_heap p) (owned_good _ _ _ _ O Ei)) as (h & C & T). destruct (own_kill _ _ _ _ _ O Ei T) as [O1 W1].
    set (p' := {| g_heap := h; g_disjs := kill (g_disjs p) i; g_sets := g_sets p; g_mine := remove Nat.eq_dec i (g_mine p) |}).
    assert (S1 : forall k, the_disj p' k = if Nat.eqb i k then None else the_disj p k) by (intros k; exact (at_kill _ _ _)).
    assert (K1 : forall k, In k (kept p') <-> In k (kept p) /\ k <> i).
    { unfold kept in N. apply nodup_app in N. destruct N as (N1 & N2 & N3). intros k. unfold kept. cbn [p' g_mine g_sets]. rewrite !in_app_iff. split.
      - intros [H|H]; [apply in_remove in H; tauto|]. split; [auto|]. intros ->. exact (N3 i A H).
      - intros [[H|H] Ne]; [left; apply in_in_remove; auto|auto]. }
    exists p'. split; [cbn [exec]; rewrite Ei, C; reflexivity|]. split; [|split; [|split; [|split; [|split]]]].
    + split; [exact O1|]. split.
      * unfold kept in *. cbn [p' g_mine g_sets]. apply nodup_app in N. destruct N as (N1 & N2 & N3). apply nodup_app. split; [|split; [exact N2|]].
        -- clear - N1. induction (g_mine p) as [|z r IH]; [constructor|]. apply NoDup_cons_iff in N1. cbn [remove]. destruct (Nat.eq_dec i z); [tauto|]. constructor; [|tauto]. intros H. apply in_remove in H. tauto.
        -- intros z Hz. apply in_remove in Hz. apply N3. tauto.
      * intros z Hz. apply K1 in Hz. rewrite S1. destruct (Nat.eqb_spec i z); [subst; destruct Hz as [_ Hz]; congruence|]. exact (K z (proj1 Hz)).
    + split; [intros z H1 _ H2; apply W1; exact H2|]. split; [|split; [cbn; rewrite kill_len; lia|split; [|split]]].
      * intros z H. rewrite S1. cbn [deletes]. destruct (Nat.eqb_spec i z); [split; auto|]. split; [congruence|]. congruence.
      * intros z H1 H2. rewrite S1. destruct (Nat.eqb i z); [reflexivity|exact H2].
      * intros z H. apply K1 in H. tauto.
      * intros z H1 H2. rewrite S1 in H2. destruct (Nat.eqb i z); [congruence|]. apply the_lt in H2. lia.
    + cbn [outcome]. rewrite S1, Nat.eqb_refl. reflexivity.
    + exact (proj1 (same_sets p p' (DDestroy i) eq_refl)).
    + exact (proj2 (same_sets p p' (DDestroy i) eq_refl)).
    + intros _ z H. destruct (Nat.eq_dec z i); [right; exact e|left; apply K1; auto].
  - (* SNew *)
    set (x := {| s_plain := splain_new; s_disjs := [] |}). assert (EI : inset (g_sets p ++ [Some x]) = inset (g_sets p)) by (unfold inset; rewrite flat_map_app; cbn; apply app_nil_r).
    destruct (shape_sets p (g_sets p ++ [Some x]) I) as [I1 F1]; [rewrite EI; exact N|rewrite EI; intros k H; apply in_app_iff; auto|].
    eexists. split; [reflexivity|]. split; [exact I1|]. split; [exact F1|]. split; [cbn [outcome]; rewrite set_app, Nat.eqb_refl; reflexivity|]. split; [|split].
    + intros s H _. rewrite set_app. destruct (Nat.eqb_spec (length (g_sets p)) s); [apply set_lt in H; lia|reflexivity].
    + auto.
    + intros _ k H. left. change (In k (g_mine p ++ inset (g_sets p ++ [Some x]))). rewrite EI. exact H.
  - (* SCopy *)
    destruct (the_set p s) as [x|] eqn:E; [|congruence]. set (n := length (g_disjs p)). set (y := {| s_plain := s_plain x; s_disjs := seq n (length (s_disjs x)) |}).
    assert (EI : inset (g_sets p ++ [Some y]) = inset (g_sets p) ++ seq n (length (s_disjs x))) by (unfold inset; rewrite flat_map_app; cbn [flat_map olists y s_disjs]; now rewrite app_nil_r).
    destruct (shape_many p (s_disjs x) (g_sets p ++ [Some y]) I) as (p1 & C & I1 & F1 & Q1 & Q2 & V1).
    + intros i Hi. apply K. exact (in_kept_set _ _ _ _ E Hi).
    + rewrite EI, app_assoc. apply nodup_app. split; [exact N|]. split; [apply seq_NoDup|]. intros z Hz Y. apply in_seq in Y. apply (kept_lt _ _ I) in Hz. fold n in Hz. lia.
    + rewrite EI, app_assoc. intros k H. apply in_app_iff in H. exact H.
    + rewrite EI. intros k H. apply in_app_iff. auto.
    + fold n in C. eexists. split; [cbn [exec]; rewrite E, C; fold y; reflexivity|]. split; [exact I1|]. split; [exact F1|]. split.
      * exists x. split; [exact E|]. split; [rewrite set_app, Nat.eqb_refl; reflexivity|exact V1].
      * split; [|split].
        -- intros t H _. rewrite set_app. destruct (Nat.eqb_spec (length (g_sets p)) t); [apply set_lt in H; lia|reflexivity].
        -- intros t _ _. right. eauto.
        -- intros _ k H. left. change (In k (g_mine p ++ inset (g_sets p ++ [Some y]))). rewrite EI, app_assoc. apply in_app_iff. left. exact H.
  - (* SAssign *)
    destruct A as [A1 A2]. destruct (the_set p s) as [x0|] eqn:Es; [|congruence]. destruct (the_set p t) as [x|] eqn:Et; [|congruence].
    destruct (Nat.eq_dec s t) as [->|Ne].
    + exists p. split; [cbn [exec]; rewrite Et, Nat.eqb_refl; reflexivity|]. split; [exact I|]. split; [apply reflframe|]. split.
      * exists x. split; [exact Et|]. split; [auto|congruence].
      * destruct (same_sets p p (SAssign t t) eq_refl) as [S1 S2]. split; [exact S1|]. split; [exact S2|]. intros _ k H. now left.
    + set (n := length (g_disjs p)). set (y := {| s_plain := s_plain x; s_disjs := seq n (length (s_disjs x)) |}).
      destruct (inset_split _ _ _ (the_set_nth _ _ _ Es)) as (FF & P1 & P2 & _). assert (P3 := P2 y). cbn [y s_disjs] in P3. fold y in P3.
      assert (NK : NoDup (g_mine p ++ s_disjs x0 ++ FF)) by (apply (Permutation_NoDup (Permutation_app_head (g_mine p) P1)); exact N).
      assert (KIN : forall k, In k (kept p) <-> In k (g_mine p) \/ In k (s_disjs x0) \/ In k FF).
      { intros k. unfold kept. rewrite !in_app_iff. split; (intros [H|H]; [auto|right]).
        - apply (Permutation_in k P1) in H. apply in_app_iff in H. exact H.
        - apply (Permutation_in k (Permutation_sym P1)). apply in_app_iff. exact H. }
      assert (K2 : forall k, In k (inset (put (g_sets p) s y)) <-> In k (seq n (length (s_disjs x))) \/ In k FF).
      { intros k. split; intros H; [apply (Permutation_in k P3) in H; now apply in_app_iff|]. apply (Permutation_in k (Permutation_sym P3)). now apply in_app_iff. }
      destruct (shape_many p (s_disjs x) (put (g_sets p) s y) I) as (p1 & C & I1 & F1 & Q1 & Q2 & V1).
      * intros i Hi. apply K. exact (in_kept_set _ _ _ _ Et Hi).
      * apply (Permutation_NoDup (Permutation_app_head (g_mine p) (Permutation_sym P3))). apply nodup_app in NK. destruct NK as (N1 & N2 & N3). apply nodup_app in N2. destruct N2 as (N4 & N5 & N6).
        apply nodup_app. split; [exact N1|]. split.
        -- apply nodup_app. split; [apply seq_NoDup|]. split; [exact N5|]. intros z Hz Y. apply in_seq in Hz. assert (Z : In z (kept p)) by (apply KIN; auto). apply (kept_lt _ _ I) in Z. fold n in Z. lia.
        -- intros z Hz Y. apply in_app_iff in Y. destruct Y as [Y|Y]; [apply in_seq in Y; assert (Z : In z (kept p)) by (apply KIN; auto); apply (kept_lt _ _ I) in Z; fold n in Z; lia|]. apply (N3 z Hz), in_app_iff. auto.
      * intros k H. rewrite in_app_iff, K2 in H. destruct H as [H|[H|H]]; [left; apply KIN; auto|right; exact H|left; apply KIN; auto].
      * intros k H. apply K2. auto.
      * fold n in C. exists (put_set p1 s y). assert (PS : put_set p1 s y = {| g_heap := g_heap p1; g_disjs := g_disjs p1; g_sets := put (g_sets p) s y; g_mine := g_mine p |}) by (unfold put_set; rewrite Q1, Q2; reflexivity).
        split; [cbn [exec]; rewrite Es, Et, (proj2 (Nat.eqb_neq s t) Ne), C; reflexivity|]. rewrite PS.
        assert (SS : forall z, the_set {| g_heap := g_heap p1; g_disjs := g_disjs p1; g_sets := put (g_sets p) s y; g_mine := g_mine p |} z = if Nat.eqb s z then Some y else the_set p z).
        { intros z. rewrite <- (set_put p s y z) by congruence. reflexivity. }
        split; [exact I1|]. split; [exact F1|]. split.
        -- exists x. split; [exact Et|]. split; [congruence|]. intros _. split; [rewrite SS, Nat.eqb_refl; reflexivity|exact V1].
        -- split; [|split].
           ++ intros z H1 H2. rewrite SS. cbn [writes_set] in H2. destruct (Nat.eqb_spec s z); [congruence|reflexivity].
           ++ intros z H1 H2. rewrite SS in H2. destruct (Nat.eqb_spec s z); congruence.
           ++ intros ND k H. cbn [drops] in ND. left. unfold kept. cbn [g_mine g_sets]. apply in_app_iff. rewrite K2. apply KIN in H. destruct H as [H|[H|H]]; [auto| |auto].
              exfalso. apply ND. split; [exact Ne|]. exists x0. split; [exact Es|]. intros Z. rewrite Z in H. destruct H.
  - (* SAdd *)
    destruct A as [A1 A2]. destruct (the_set p s) as [x|] eqn:Es; [|congruence]. destruct (the_disj p i) as [d|] eqn:E; [|congruence]. assert (Ei : at_ (g_disjs p) i = Some d) by exact E.
    destruct (copy_ok d None (g_heap p) (all_away _ _ _ _ O Ei)) as (h & ts & C & T & V). rewrite copied_new in C. cbn [d_plain] in C.
    match type of C with _ = Some (_, ?z) => set (d' := z) in * end.
    set (d2 := with_id d' (Z.of_nat (length (s_disjs x)))). set (n := length (g_disjs p)). set (y := {| s_plain := set_values (s_plain x) (d_plain d2); s_disjs := s_disjs x ++ [n] |}).
    destruct (inset_split _ _ _ (the_set_nth _ _ _ Es)) as (FF & P1 & P2 & _). assert (P3 := P2 y). cbn [y s_disjs] in P3. fold y in P3.
    assert (PK : Permutation (g_mine p ++ inset (put (g_sets p) s y)) (n :: kept p)).
    { apply (perm_trans (Permutation_app_head _ P3)). unfold kept. apply (fun H => perm_trans H (perm_skip n (Permutation_app_head (g_mine p) (Permutation_sym P1)))).
      rewrite <- app_assoc. cbn [app]. apply Permutation_sym. apply (perm_trans (l' := g_mine p ++ n :: s_disjs x ++ FF)); [apply Permutation_middle|]. apply Permutation_app_head. apply Permutation_middle. }
    destruct (shape_app p h d2 (put (g_sets p) s y) (g_mine p) I T PK) as (I1 & F1 & V1).
    assert (SS : forall z, the_set {| g_heap := h; g_disjs := g_disjs p ++ [Some d2]; g_sets := put (g_sets p) s y; g_mine := g_mine p |} z = if Nat.eqb s z then Some y else the_set p z).
    { intros z. rewrite <- (set_put p s y z) by congruence. reflexivity. }
    eexists. split; [cbn [exec]; rewrite Es, E, C; fold d2 n y; unfold put_set; cbn [g_heap g_disjs g_sets g_mine]; reflexivity|]. split; [exact I1|]. split; [exact F1|]. split.
    + exists x, (d_plain d, map (view_term (g_heap p)) (d_terms d)). split; [exact Es|]. split; [exact (vw_at _ _ _ _ Ei)|]. cbv zeta. cbn [fst snd]. split.
      * rewrite SS, Nat.eqb_refl. reflexivity.
      * rewrite V1. cbn [d2 with_id d' d_plain d_terms]. rewrite V. reflexivity.
    + split; [|split].
      * intros z H1 H2. rewrite SS. cbn [writes_set] in H2. destruct (Nat.eqb_spec s z); [congruence|reflexivity].
      * intros z H1 H2. rewrite SS in H2. destruct (Nat.eqb_spec s z); congruence.
      * intros _ k H. left. apply (Permutation_in k (Permutation_sym PK)). now right.
  - (* SSetupAsNew *)
    destruct (the_set p s) as [x|] eqn:Es; [|congruence]. set (y := {| s_plain := splain_new; s_disjs := [] |}).
    destruct (inset_split _ _ _ (the_set_nth _ _ _ Es)) as (FF & P1 & P2 & _). assert (P3 := P2 y). cbn [y s_disjs app] in P3. fold y in P3.
    assert (NK : NoDup (g_mine p ++ s_disjs x ++ FF)) by (apply (Permutation_NoDup (Permutation_app_head (g_mine p) P1)); exact N).
    destruct (shape_sets p (put (g_sets p) s y) I) as [I1 F1].
    + apply (Permutation_NoDup (Permutation_app_head (g_mine p) (Permutation_sym P3))). apply nodup_app in NK. destruct NK as (N1 & N2 & N3). apply nodup_app in N2. apply nodup_app. split; [exact N1|]. split; [tauto|].
      intros z Hz Y. apply (N3 z Hz), in_app_iff. auto.
    + intros k H. apply (Permutation_in k P3) in H. apply in_app_iff. right. apply (Permutation_in k (Permutation_sym P1)), in_app_iff. auto.
    + assert (SS : forall z, the_set (put_set p s y) z = if Nat.eqb s z then Some y else the_set p z) by (intros z; apply set_put; congruence).
      exists (put_set p s y). split; [cbn [exec]; rewrite Es; reflexivity|]. split; [exact I1|]. split; [exact F1|]. split; [cbn [outcome]; rewrite SS, Nat.eqb_refl; reflexivity|]. split; [|split].
      * intros z H1 H2. rewrite SS. cbn [writes_set] in H2. destruct (Nat.eqb_spec s z); [congruence|reflexivity].
      * intros z H1 H2. rewrite SS in H2. destruct (Nat.eqb_spec s z); congruence.
      * intros ND k H. cbn [drops] in ND. left. unfold kept in *. cbn [put_set g_mine g_sets]. apply in_app_iff in H. apply in_app_iff. destruct H as [H|H]; [auto|right].
        apply (Permutation_in k P1) in H. apply (Permutation_in k (Permutation_sym P3)). apply in_app_iff in H. destruct H as [H|H]; [|exact H].
        exfalso. apply ND. exists x. split; [exact Es|]. intros Z. rewrite Z in H. destruct H.
  - (* SDestroy *)
    destruct (the_set p s) as [x|] eqn:Es; [|congruence].
    destruct (inset_split _ _ _ (the_set_nth _ _ _ Es)) as (FF & P1 & _ & P3).
    assert (NK : NoDup (g_mine p ++ s_disjs x ++ FF)) by (apply (Permutation_NoDup (Permutation_app_head (g_mine p) P1)); exact N).
    assert (NK2 := NK). apply nodup_app in NK2. destruct NK2 as (N1 & N2 & N3). apply nodup_app in N2. destruct N2 as (N4 & N5 & N6).
    destruct (delete_each_ok (s_disjs x) p O N4) as (p1 & C & O1 & Q1 & Q2 & Q3 & Q4 & Q5); [intros i Hi; apply K; exact (in_kept_set _ _ _ _ Es Hi)|].
    set (p' := {| g_heap := g_heap p1; g_disjs := g_disjs p1; g_sets := kill (g_sets p) s; g_mine := g_mine p |}).
    assert (KIN : forall k, In k (kept p') <-> In k (g_mine p) \/ In k FF).
    { intros k. unfold kept. cbn [p' g_mine g_sets]. rewrite in_app_iff. split; (intros [H|H]; [auto|right]); [exact (Permutation_in k P3 H)|exact (Permutation_in k (Permutation_sym P3) H)]. }
    assert (KIN0 : forall k, In k (kept p) <-> In k (g_mine p) \/ In k (s_disjs x) \/ In k FF).
    { intros k. unfold kept. rewrite !in_app_iff. split; (intros [H|H]; [auto|right]).
      - apply (Permutation_in k P1) in H. apply in_app_iff in H. exact H.
      - apply (Permutation_in k (Permutation_sym P1)). apply in_app_iff. exact H. }
    assert (NIN : forall k, In k (kept p') -> ~ In k (s_disjs x)).
    { intros k H X. apply KIN in H. destruct H as [H|H]; [apply (N3 k H), in_app_iff; auto|exact (N6 k X H)]. }
    assert (DEL : forall k, deletes p (SDestroy s) k <-> In k (s_disjs x)).
    { intros k. cbn [deletes]. rewrite Es. split; [intros (z & Z1 & Z2); congruence|eauto]. }
    exists p'. split; [cbn [exec]; rewrite Es, C; unfold p'; rewrite Q1, Q2; reflexivity|]. split; [|split; [|split; [|split; [|split]]]].
    + split; [exact O1|]. split.
      * unfold kept. cbn [p' g_mine g_sets]. apply (Permutation_NoDup (Permutation_app_head (g_mine p) (Permutation_sym P3))). apply nodup_app. split; [exact N1|]. split; [exact N5|]. intros z Hz Y. apply (N3 z Hz), in_app_iff. auto.
      * intros k H. change (the_disj p1 k <> None). rewrite (proj1 (Q5 k (NIN k H))). apply K, KIN0. apply KIN in H. tauto.
    + split; [intros k H1 _ H2; rewrite DEL in H2; exact (proj2 (Q5 k H2))|]. split; [|split; [cbn; lia|split; [|split]]].
      * intros k H. rewrite DEL. change (the_disj p' k) with (the_disj p1 k). split; [|exact (Q4 k)]. intros Z. destruct (in_dec Nat.eq_dec k (s_disjs x)) as [Y|Y]; [exact Y|]. rewrite (proj1 (Q5 k Y)) in Z. congruence.
      * intros k H1 H2. change (the_disj p1 k = None). destruct (in_dec Nat.eq_dec k (s_disjs x)) as [Y|Y]; [exact (Q4 k Y)|]. now rewrite (proj1 (Q5 k Y)).
      * intros k H. left. apply KIN in H. apply KIN0. tauto.
      * intros k H1 H2. apply the_lt in H2. cbn in H2. lia.
    + cbn [outcome]. unfold p'. rewrite set_kill, Nat.eqb_refl. reflexivity.
    + intros z H1 H2. unfold p'. rewrite set_kill. cbn [writes_set] in H2. destruct (Nat.eqb_spec s z); [congruence|reflexivity].
    + intros z H1 H2. unfold p' in H2. rewrite set_kill in H2. destruct (Nat.eqb s z); congruence.
    + intros _ k H. rewrite DEL. apply KIN0 in H. rewrite KIN. tauto.
Qed.
Lemma history_inv p : history p -> inv p.
Proof.
  induction 1 as [|p c p' H IH A E].
  - split; [split; [constructor|]|split; [constructor|intros ? []]]. intros a. split; [intros []|]. unfold live, cell. cbn. destruct a; cbn; congruence.
  - destruct (step_all p c IH A) as (q & Eq & S). rewrite E in Eq. injection Eq as <-. exact (proj1 S).
Qed.
Lemma history_step p c p' : history p -> allowed p c -> exec p c = Some p' -> step_ok p c p'.
Proof. intros H A E. destruct (step_all p c (history_inv p H) A) as (q & Eq & S). rewrite E in Eq. injection Eq as <-. exact S. Qed.
