(** C27: the generated split disjunctions are the most promising ones. *)
From Coq Require Import Permutation Sorted Qminmax.
From Verif Require Import Prelude Model.Tolerance Model.LP Model.Disjunction Spec.LPSpec Spec.DisjSpec
  Proofs.ToleranceP Properties.C05_Split.

(** [std::sort] with the comparator [sortCriterion[i] > sortCriterion[j]]: a rearrangement in
    non-increasing order. *)
Definition sorts_desc (order : list (nat * Q) -> list (nat * Q)) : Prop :=
  forall l, Permutation (order l) l /\ StronglySorted (fun a b => snd b <= snd a) (order l).

(** The variable can be branched on: both sides have an optimum; its merit is the smaller optimum. *)
Definition both_sides (ans : nat -> bool -> branchans) (v : nat) : Prop :=
  exists a b, ans v false = BOptimal a /\ ans v true = BOptimal b.
Definition merit (ans : nat -> bool -> branchans) (v : nat) : Q :=
  match ans v false, ans v true with BOptimal a, BOptimal b => Qmin a b | _, _ => 0 end.

Lemma select_spec AWAY isint x ans : forall cands sel, split_select AWAY isint x ans cands = Some sel ->
  (forall v, In v (map fst sel) <-> In v cands /\ both_sides ans v) /\
  (forall p, In p sel -> snd p == merit ans (fst p)) /\
  (NoDup cands -> NoDup (map fst sel)).
Proof.
  induction cands as [|v r IH]; intros sel H; cbn [split_select] in H.
  - inversion H; subst. cbn. split; [intros; tauto|]. split; [intros ? []|intros _; constructor].
  - cbv zeta in H. destruct (negb (isint v)); [discriminate|].
    destruct (_ || _); [discriminate|].
    assert (Skip : ~ both_sides ans v -> split_select AWAY isint x ans r = Some sel ->
      (forall w, In w (map fst sel) <-> In w (v :: r) /\ both_sides ans w) /\
      (forall p, In p sel -> snd p == merit ans (fst p)) /\ (NoDup (v :: r) -> NoDup (map fst sel))).
    { intros N E. destruct (IH sel E) as (I1 & I2 & I3). split; [|split; [exact I2|]].
      - intro w. rewrite I1. cbn [In]. split; [tauto|]. intros [[<-|Hw] B]; [contradiction|tauto].
      - intro ND. inversion ND; subst. auto. }
    destruct (ans v false) as [a| |] eqn:E1; destruct (ans v true) as [b| |] eqn:E2; try discriminate;
      try (apply Skip; [intros (a' & b' & X & Y); congruence|exact H]).
    destruct (split_select AWAY isint x ans r) as [s'|] eqn:E; [|discriminate]. inversion H; subst.
    destruct (IH s' eq_refl) as (I1 & I2 & I3). split; [|split].
    + intro w. cbn [map fst In]. rewrite I1. split.
      * intros [<-|[A B]]; [split; [left; reflexivity|exists a, b; auto]|split; [right; exact A|exact B]].
      * intros [[<-|A] B]; [left; reflexivity|right; split; assumption].
    + intros p [<-|Hp]; [|apply I2, Hp]. cbn [fst snd]. unfold merit. rewrite E1, E2.
      destruct (Qltb b a) eqn:L.
      * apply Qltb_lt in L. symmetry. apply Q.min_r. lra.
      * apply Qltb_ge in L. symmetry. apply Q.min_l. lra.
    + intro ND. inversion ND; subst. cbn [map fst]. constructor; [|auto]. rewrite I1. tauto.
Qed.

Lemma add_one_spec AWAY isint x ans prep s v s' : split_add_one AWAY isint x ans prep s v = Some s' ->
  exists d, ds_disjs s' = ds_disjs s ++ [d] /\ d_id d = Z.of_nat (length (ds_disjs s)) /\
    (both_sides ans v -> d_var d = Some v /\
      if prep then exists d0, split_prepare AWAY isint x ans [] (with_var disj_new (Some v)) = Some (DSuccess, d0) /\ d = with_id d0 (d_id d)
      else d_terms d = [] /\ d_num_terms d = O).
Proof.
  unfold split_add_one. cbv zeta. intro H.
  destruct prep.
  - cbn [split_prepare with_var d_var] in H.
    destruct (checkVar AWAY isint x ans _ v) as [[b d1]|] eqn:C; [|discriminate]. cbn [option_map snd] in H.
    unfold addDisjunction, ds_updateObjValue in H. cbv zeta in H.
    destruct (negb _); [discriminate|]. inversion H; subst. cbn [ds_disjs].
    eexists. split; [reflexivity|]. split; [reflexivity|]. intros (a & b' & E1 & E2).
    unfold checkVar in C. cbv zeta in C. destruct (negb (isint v)) eqn:N1; [discriminate|].
    destruct (_ || _) eqn:N2 in C; [discriminate|]. rewrite E1, E2 in C. inversion C; subst b. subst d1.
    split; [reflexivity|].
    eexists. split; [|reflexivity]. unfold split_prepare. cbn [with_var d_var]. unfold checkVar. cbv zeta. rewrite N1, N2, E1, E2. reflexivity.
  - unfold addDisjunction, ds_updateObjValue in H. cbv zeta in H.
    destruct (negb _); [discriminate|]. inversion H; subst. cbn [ds_disjs].
    eexists. split; [reflexivity|]. split; [reflexivity|]. intros _. repeat split.
Qed.

Definition made_for AWAY isint x ans (prep : bool) (v : nat) (d : disj) : Prop :=
  d_var d = Some v /\
  if prep then exists d0, split_prepare AWAY isint x ans [] (with_var disj_new (Some v)) = Some (DSuccess, d0) /\ d = with_id d0 (d_id d)
  else d_terms d = [] /\ d_num_terms d = O.

Lemma add_spec AWAY isint x ans prep : forall vs s s', split_add AWAY isint x ans prep s vs = Some s' ->
  (forall v, In v vs -> both_sides ans v) ->
  exists ds, ds_disjs s' = ds_disjs s ++ ds /\ Forall2 (made_for AWAY isint x ans prep) vs ds /\
   (forall i d, nth_error ds i = Some d -> d_id d = Z.of_nat (length (ds_disjs s) + i)).
Proof.
  induction vs as [|v r IH]; intros s s' H B; cbn [split_add] in H.
  - inversion H; subst. exists []. split; [symmetry; apply app_nil_r|]. split; [constructor|]. intros [|] ? ?; discriminate.
  - destruct (split_add_one AWAY isint x ans prep s v) as [s1|] eqn:E; [|discriminate].
    destruct (add_one_spec _ _ _ _ _ _ _ _ E) as (d & D1 & D2 & D3).
    destruct (IH s1 s' H (fun w Hw => B w (or_intror Hw))) as (ds & S1 & S2 & S3).
    exists (d :: ds). split; [rewrite S1, D1, <- app_assoc; reflexivity|]. split.
    + constructor; [|exact S2]. apply D3, B. left; reflexivity.
    + intros [|i] d' Hd; cbn in Hd.
      * inversion Hd; subst. rewrite D2. f_equal. lia.
      * rewrite (S3 _ _ Hd), D1, app_length. cbn. f_equal. lia.
Qed.

Lemma firstn_in {A} n (l : list A) a : In a (firstn n l) -> In a l.
Proof. intro H. rewrite <- (firstn_skipn n l). apply in_or_app. left; exact H. Qed.

Lemma NoDup_firstn {A} n (l : list A) : NoDup l -> NoDup (firstn n l).
Proof.
  intro N. revert n. induction N as [|a l H N IH]; intros [|n]; cbn; constructor; [|apply IH].
  intro X. apply H, (firstn_in n), X.
Qed.

(** A list in non-increasing order, cut after [k]: what is kept is ordered and beats what is dropped. *)
Lemma sorted_prefix {A} (f : A -> Q) (l : list A) k : StronglySorted (fun a b => f b <= f a) l ->
  StronglySorted (fun a b => f b <= f a) (firstn k l) /\
  (forall a b, In a (firstn k l) -> In b (skipn k l) -> f b <= f a).
Proof.
  revert l. induction k as [|k IH]; intros [|y l] S; cbn [firstn skipn].
  1,2,3: split; [constructor|intros ? ? []].
  inversion S as [|? ? S1 S2]; subst. destruct (IH l S1) as [I1 I2]. rewrite Forall_forall in S2. split.
  - constructor; [exact I1|]. apply Forall_forall. intros z Hz. apply S2. exact (firstn_in _ _ _ Hz).
  - intros a b [<-|Ha] Hb; [|exact (I2 a b Ha Hb)]. apply S2.
    rewrite <- (firstn_skipn k l). apply in_or_app. right; exact Hb.
Qed.

Lemma sorted_map {A B} (g : A -> B) (R : A -> A -> Prop) (R' : B -> B -> Prop) l :
  (forall a b, In a l -> In b l -> R a b -> R' (g a) (g b)) -> StronglySorted R l -> StronglySorted R' (map g l).
Proof.
  intros H S. induction S as [|a l S IH F]; cbn; constructor.
  - apply IH. intros; apply H; [right|right|]; assumption.
  - rewrite Forall_forall in *. intros b Hb. apply in_map_iff in Hb. destruct Hb as (c & <- & Hc).
    apply H; [left; reflexivity|right; exact Hc|]. apply F, Hc.
Qed.

Theorem split_generation :
  forall AWAY isint x ans DISJ_TERMS prep cands order s s' n,
  sorts_desc order -> NoDup cands ->
  generateSplitDisjunctions AWAY isint x ans DISJ_TERMS prep cands order s = Some (s', n) ->
  exists vs ds,
    ds_disjs s' = ds_disjs s ++ ds /\ length ds = n /\ (Z.of_nat n <= Z.max 0 DISJ_TERMS)%Z /\
    (forall i d, nth_error ds i = Some d -> d_id d = Z.of_nat (length (ds_disjs s) + i) /\ d_var d = nth_error vs i) /\
    NoDup vs /\ length vs = n /\
    (forall v, In v vs -> In v cands /\ both_sides ans v) /\
    StronglySorted (fun v w => merit ans w <= merit ans v) vs /\
    (forall w, In w cands -> both_sides ans w -> ~ In w vs ->
       Z.of_nat n = Z.max 0 DISJ_TERMS /\ forall v, In v vs -> merit ans w <= merit ans v) /\
    (prep = true -> forall d, In d ds -> exists v d0, d_var d = Some v /\
        split_prepare AWAY isint x ans [] (with_var disj_new (Some v)) = Some (DSuccess, d0) /\ d = with_id d0 (d_id d)).
Proof.
  intros AWAY isint x ans DT prep cands order s s' n Ho ND H. unfold generateSplitDisjunctions in H.
  destruct cands as [|c0 cs].
  { inversion H; subst. exists [], []. split; [symmetry; apply app_nil_r|]. split; [reflexivity|]. split; [lia|].
    split; [intros [|] ? ?; discriminate|]. split; [constructor|]. split; [reflexivity|]. split; [intros ? []|].
    split; [constructor|]. split; [intros ? []|intros _ ? []]. }
  remember (c0 :: cs) as cands eqn:Ec. clear Ec c0 cs.
  destruct (split_select AWAY isint x ans cands) as [sel|] eqn:E; [|discriminate]. cbv zeta in H.
  destruct (select_spec _ _ _ _ _ _ E) as (S1 & S2 & S3). destruct (Ho sel) as [O1 O2].
  set (k := Z.to_nat DT) in *. set (L := order sel) in *.
  destruct (split_add AWAY isint x ans prep s (firstn k (map fst L))) as [s1|] eqn:A; [|discriminate].
  inversion H; subst s1 n. clear H. set (vs := firstn k (map fst L)) in *.
  assert (Hin : forall v, In v (map fst L) <-> In v cands /\ both_sides ans v).
  { intro v. rewrite <- S1. split; apply Permutation_in; apply Permutation_map; [|apply Permutation_sym]; exact O1. }
  assert (NDL : NoDup (map fst L)) by (apply (Permutation_NoDup (Permutation_map fst (Permutation_sym O1))), S3, ND).
  assert (SL : StronglySorted (fun v w => merit ans w <= merit ans v) (map fst L)).
  { apply (sorted_map fst (fun a b : nat * Q => snd b <= snd a)); [|exact O2].
    intros a b Ha Hb R. apply (Permutation_in _ O1) in Ha, Hb. rewrite <- (S2 _ Ha), <- (S2 _ Hb). exact R. }
  destruct (sorted_prefix (merit ans) (map fst L) k SL) as [SP1 SP2].
  assert (Hvs : forall v, In v vs -> In v cands /\ both_sides ans v) by (intros v Hv; apply Hin, (firstn_in k), Hv).
  destruct (add_spec _ _ _ _ _ _ _ _ A (fun v Hv => proj2 (Hvs v Hv))) as (ds & A1 & A2 & A3).
  assert (Len : length ds = length vs) by (clear - A2; induction A2; cbn; congruence).
  exists vs, ds. split; [exact A1|]. split; [exact Len|].
  assert (Lk : (length vs <= k)%nat) by (unfold vs; rewrite firstn_length; lia).
  split; [unfold k in Lk; lia|].
  split.
  { intros i d Hd. split; [apply A3, Hd|].
    clear - A2 Hd. revert i d Hd. induction A2 as [|v d0 vs ds [M _] A2 IH]; intros [|i] d Hd; cbn in *; try discriminate.
    - inversion Hd; subst. exact M.
    - apply IH, Hd. }
  split. { unfold vs. apply NoDup_firstn, NDL. }
  split; [reflexivity|]. split; [exact Hvs|]. split; [exact SP1|]. split.
  - intros w Hw Bw Nw. assert (Hs : In w (skipn k (map fst L))).
    { assert (X : In w (map fst L)) by (apply Hin; auto). rewrite <- (firstn_skipn k (map fst L)) in X.
      apply in_app_or in X. destruct X as [X|X]; [contradiction|exact X]. }
    split; [|intros v Hv; exact (SP2 v w Hv Hs)].
    assert (k < length (map fst L))%nat.
    { destruct (le_lt_dec (length (map fst L)) k) as [G|G]; [|exact G]. rewrite skipn_all2 in Hs by exact G. destruct Hs. }
    assert (length vs = k) by (unfold vs; rewrite firstn_length; lia). unfold k in *. lia.
  - intros -> d Hd. clear - A2 Hd. induction A2 as [|v d0 vs ds M A2 IH]; [destruct Hd|].
    destruct Hd as [<-|Hd]; [|exact (IH Hd)]. destruct M as (M1 & d1 & M2 & M3). exists v, d1. auto.
Qed.
Print Assumptions split_generation.

(** With an answer-sound solver every generated (prepared) split contains every integer point. *)
Theorem split_generation_covers :
  forall AWAY P isint x ans DISJ_TERMS cands order s s' n,
  0 < AWAY -> answers_sound P x ans -> sorts_desc order -> NoDup cands ->
  (forall c, In c cands -> (c < ncols P)%nat) ->
  generateSplitDisjunctions AWAY isint x ans DISJ_TERMS true cands order s = Some (s', n) ->
  exists ds, ds_disjs s' = ds_disjs s ++ ds /\ length ds = n /\
    forall d, In d ds -> d_num_terms d = 2%nat /\ length (d_terms d) = 2%nat /\
      (forall t, In t (d_terms d) -> ~ in_term t x) /\
      (forall y, feasible P y -> integral isint (ncols P) y -> in_disj d y).
Proof.
  intros AWAY P isint x ans DT cands order s s' n HA Hans Ho ND Hc H.
  destruct (split_generation _ _ _ _ _ _ _ _ _ _ _ Ho ND H) as (vs & ds & G1 & G2 & _ & G4 & _ & _ & G7 & _ & _ & G9).
  exists ds. split; [exact G1|]. split; [exact G2|]. intros d Hd.
  destruct (G9 eq_refl d Hd) as (v & d0 & V & S & E).
  assert (Hv : In v cands).
  { destruct (In_nth_error _ _ Hd) as [i Hi]. destruct (G4 i d Hi) as [_ N]. rewrite V in N. symmetry in N.
    apply nth_error_In in N. apply (G7 v N). }
  destruct (split_covers AWAY P isint x ans [] (with_var disj_new (Some v)) d0 HA Hans) as
    (col & t1 & t2 & C1 & C2 & C3 & C4 & C5 & C6 & C7 & C8 & C9 & C10 & C11).
  - repeat split.
  - intros ? [].
  - intros w Hw. cbn in Hw. inversion Hw; subst. apply Hc, Hv.
  - exact S.
  - rewrite E. cbn [d_num_terms d_terms with_id]. rewrite C4, C5. split; [reflexivity|]. split; [reflexivity|].
    split; [intros t [<-|[<-|[]]]; assumption|]. intros y F I. destruct (C11 y F I) as [D1 (t & D2 & D3)].
    split; [exact D1|]. exists t. cbn [d_terms with_id]. split; assumption.
Qed.
Print Assumptions split_generation_covers.

(** REFUTED: the bound changes found while generating splits (a side infeasible) are forgotten: no
    generated disjunction carries them. *)
Theorem common_changes_kept_refuted :
  exists AWAY isint x ans cands order s',
    sorts_desc order /\ In 0%nat cands /\ ans 0%nat false = BInfeasible /\
    generateSplitDisjunctions AWAY isint x ans 2 true cands order dset_new = Some (s', 1%nat) /\
    forall d, In d (ds_disjs s') -> d_common d = [].
Proof.
  set (sortd := fix ins l := match l with [] => [] | p :: r =>
     (fix i1 m := match m with [] => [p] | q :: t => if Qle_bool (snd q) (snd p) then p :: q :: t else q :: i1 t end) (ins r : list (nat * Q)) end).
  set (i1 := fun p => fix i1 m := match m with [] => [p] | q :: t => if Qle_bool (snd q) (snd p) then p :: q :: t else q :: i1 t end : list (nat * Q)).
  exists (1#1000), (fun _ => true), exSx, exSans, [0;1]%nat, sortd. eexists. split.
  - assert (I : forall p m, Permutation (i1 p m) (p :: m) /\
        (StronglySorted (fun a b => snd b <= snd a) m -> StronglySorted (fun a b => snd b <= snd a) (i1 p m))).
    { intros p m. induction m as [|q t [I1 I2]]; cbn; [split; [reflexivity|intros; repeat constructor]|].
      destruct (Qle_bool (snd q) (snd p)) eqn:L.
      - split; [reflexivity|]. intro S. apply Qle_bool_iff in L. constructor; [exact S|]. constructor; [exact L|].
        inversion S as [|? ? ? F]; subst. rewrite Forall_forall in *. intros z Hz. apply F in Hz. cbn in Hz. lra.
      - split; [rewrite I1; apply perm_swap|]. intro S. inversion S as [|? ? S1 F]; subst. constructor; [apply I2, S1|].
        rewrite Forall_forall in *. intros z Hz. apply (Permutation_in _ I1) in Hz. destruct Hz as [<-|Hz]; [|exact (F z Hz)].
        destruct (Qlt_le_dec (snd p) (snd q)) as [Lt|Le]; [lra|]. exfalso.
        apply Qle_bool_iff in Le. congruence. }
    intro l. induction l as [|p r [H1 H2]]; [split; [reflexivity|constructor]|].
    change (sortd (p :: r)) with (i1 p (sortd r)). destruct (I p (sortd r)) as [J1 J2].
    split; [rewrite J1, H1; reflexivity|apply J2, H2].
  - split; [left; reflexivity|]. split; [reflexivity|]. split; [reflexivity|].
    intros d [<-|[]]; reflexivity.
Qed.
Print Assumptions common_changes_kept_refuted.
