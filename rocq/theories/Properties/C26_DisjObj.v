(** C26: best and worst objective values of a disjunction and of a set of disjunctions. *)
From Verif Require Import Prelude Model.Tolerance Model.LP Model.Disjunction.

(** [m] is the least / greatest value of the list ([None]: the list is empty). *)
Definition is_min (m : option Q) (l : list Q) : Prop :=
  match m with None => l = [] | Some q => In q l /\ forall v, In v l -> q <= v end.
Definition is_max (m : option Q) (l : list Q) : Prop :=
  match m with None => l = [] | Some q => In q l /\ forall v, In v l -> v <= q end.

Lemma omin_ok b l v : is_min b l -> is_min (omin b v) (l ++ [v]).
Proof.
  destruct b as [q|]; cbn; [|intros ->; cbn; split; [left; reflexivity|intros w [<-|[]]; apply Qle_refl]].
  intros [H1 H2]. destruct (Qltb_reflect v q) as [L|L]; cbn.
  - split; [apply in_or_app; right; left; reflexivity|]. intros w Hw. apply in_app_or in Hw.
    destruct Hw as [Hw|[<-|[]]]; [specialize (H2 w Hw); lra|apply Qle_refl].
  - split; [apply in_or_app; left; exact H1|]. intros w Hw. apply in_app_or in Hw.
    destruct Hw as [Hw|[<-|[]]]; [exact (H2 w Hw)|lra].
Qed.
Lemma omax_ok b l v : is_max b l -> is_max (omax b v) (l ++ [v]).
Proof.
  destruct b as [q|]; cbn; [|intros ->; cbn; split; [left; reflexivity|intros w [<-|[]]; apply Qle_refl]].
  intros [H1 H2]. destruct (Qltb_reflect q v) as [L|L]; cbn.
  - split; [apply in_or_app; right; left; reflexivity|]. intros w Hw. apply in_app_or in Hw.
    destruct Hw as [Hw|[<-|[]]]; [specialize (H2 w Hw); lra|apply Qle_refl].
  - split; [apply in_or_app; left; exact H1|]. intros w Hw. apply in_app_or in Hw.
    destruct Hw as [Hw|[<-|[]]]; [exact (H2 w Hw)|lra].
Qed.

(** After any sequence of reported objective values, a new disjunction's best / worst value is their
    minimum / maximum, and nothing else changes. *)
Theorem obj_value_min_max :
  forall vs, let d := fold_left updateObjValue vs disj_new in
  is_min (d_best d) vs /\ is_max (d_worst d) vs /\ d_terms d = [] /\ d_iobj d = None /\ d_common d = [].
Proof.
  intro vs. cbv zeta.
  assert (G : forall vs pre d, is_min (d_best d) pre -> is_max (d_worst d) pre ->
     let d' := fold_left updateObjValue vs d in
     is_min (d_best d') (pre ++ vs) /\ is_max (d_worst d') (pre ++ vs) /\ d_terms d' = d_terms d /\
     d_iobj d' = d_iobj d /\ d_common d' = d_common d).
  { clear vs. induction vs as [|v r IH]; intros pre d H1 H2; cbn [fold_left]; cbv zeta.
    - rewrite app_nil_r. auto.
    - destruct (IH (pre ++ [v]) (updateObjValue d v) (omin_ok _ _ _ H1) (omax_ok _ _ _ H2)) as (A & B & C).
      rewrite <- app_assoc in A, B. exact (conj A (conj B C)). }
  exact (G vs [] disj_new eq_refl eq_refl).
Qed.
Print Assumptions obj_value_min_max.

(** ** Sets of disjunctions *)
(** The finite values among optional ones, with their positions. *)
Fixpoint finite_at (f : disj -> option Q) (i : nat) (l : list disj) : list (nat * Q) :=
  match l with
  | [] => []
  | d :: r => match f d with Some q => (i, q) :: finite_at f (S i) r | None => finite_at f (S i) r end
  end.
(** [(m, k)]: [m] is the least (greatest) of the listed values and [k] the first position where it occurs;
    with no value listed, "no value" and -1. *)
Definition first_least (lt : Q -> Q -> Prop) (l : list (nat * Q)) (m : option Q) (k : Z) : Prop :=
  match m with
  | None => l = [] /\ k = (-1)%Z
  | Some q => exists i, k = Z.of_nat i /\ In (i, q) l /\
      (forall j v, In (j, v) l -> ~ lt v q) /\ (forall j v, In (j, v) l -> v == q -> (i <= j)%nat)
  end.

Definition set_summary (s : dset) : Prop :=
  (forall i d, nth_error (ds_disjs s) i = Some d -> d_id d = Z.of_nat i) /\
  first_least Qlt (finite_at d_best 0 (ds_disjs s)) (ds_best s) (ds_best_i s) /\
  first_least (fun a b => b < a) (finite_at d_worst 0 (ds_disjs s)) (ds_worst s) (ds_worst_i s) /\
  first_least Qlt (finite_at d_iobj 0 (ds_disjs s)) (ds_iobj s) (ds_iobj_i s).

Lemma finite_at_app f l1 : forall i l2, finite_at f i (l1 ++ l2) = finite_at f i l1 ++ finite_at f (i + length l1) l2.
Proof.
  induction l1 as [|d l1 IH]; intros i l2; cbn [app finite_at length]; [rewrite Nat.add_0_r; reflexivity|].
  rewrite IH. replace (S i + length l1)%nat with (i + S (length l1))%nat by lia. destruct (f d); reflexivity.
Qed.
Lemma finite_at_bound f l : forall i j v, In (j, v) (finite_at f i l) -> (i <= j < i + length l)%nat.
Proof.
  induction l as [|d l IH]; intros i j v H; cbn [finite_at length] in *; [destruct H|].
  destruct (f d); [destruct H as [H|H]; [inversion H; subst; lia|]|]; specialize (IH _ _ _ H); lia.
Qed.
Lemma finite_at_In f l : forall i j v, In (j, v) (finite_at f i l) <->
  exists d, (i <= j)%nat /\ nth_error l (j - i) = Some d /\ f d = Some v.
Proof.
  induction l as [|d l IH]; intros i j v; cbn [finite_at].
  - split; [intros []|]. intros (d & _ & H & _). destruct (j - i)%nat; discriminate.
  - assert (T : In (j, v) (finite_at f (S i) l) <-> exists d', (i <= j)%nat /\ (j - i <> 0)%nat /\ nth_error (d :: l) (j - i) = Some d' /\ f d' = Some v).
    { rewrite IH. split; intros (d' & H1 & H2).
      - exists d'. split; [lia|]. split; [lia|]. replace (j - i)%nat with (S (j - S i)) by lia. exact H2.
      - exists d'. split; [lia|]. destruct H2 as [H2 H3]. replace (j - i)%nat with (S (j - S i)) in H3 by lia. exact H3. }
    destruct (f d) as [q|] eqn:E; cbn [In]; rewrite T; split.
    + intros [H|(d' & A & B & C)]; [|exists d'; tauto]. inversion H; subst. exists d. rewrite Nat.sub_diag. cbn. auto.
    + intros (d' & A & B & C). destruct (Nat.eq_dec (j - i) 0) as [Z|Z].
      * left. rewrite Z in B. cbn in B. inversion B; subst. rewrite E in C. inversion C; subst. f_equal. lia.
      * right. exists d'. auto.
    + intros (d' & A & B & C). exists d'. tauto.
    + intros (d' & A & B & C). destruct (Nat.eq_dec (j - i) 0) as [Z|Z].
      * rewrite Z in B. cbn in B. inversion B; subst. congruence.
      * exists d'. auto.
Qed.

(** One comparison step of updateObjValue. *)
Lemma step_least (l : list (nat * Q)) m k n (v : option Q) :
  first_least Qlt l m k -> (forall j w, In (j, w) l -> (j < n)%nat) ->
  first_least Qlt (l ++ match v with Some q => [(n, q)] | None => [] end)
    (if olt v m then v else m) (if olt v m then Z.of_nat n else k).
Proof.
  intros H B. destruct v as [q|]; cbn [olt]; [|rewrite app_nil_r; destruct m; exact H].
  destruct m as [p|]; cbn in *.
  - destruct H as (i & -> & I1 & I2 & I3). destruct (Qltb_reflect q p) as [L|L].
    + exists n. split; [reflexivity|]. split; [apply in_or_app; right; left; reflexivity|]. split; intros j w Hw.
      * apply in_app_or in Hw. destruct Hw as [Hw|[Hw|[]]]; [specialize (I2 _ _ Hw); lra|inversion Hw; subst; lra].
      * intro E. apply in_app_or in Hw. destruct Hw as [Hw|[Hw|[]]]; [specialize (I2 _ _ Hw); lra|inversion Hw; subst; lia].
    + exists i. split; [reflexivity|]. split; [apply in_or_app; left; exact I1|]. split; intros j w Hw.
      * apply in_app_or in Hw. destruct Hw as [Hw|[Hw|[]]]; [exact (I2 _ _ Hw)|inversion Hw; subst; exact L].
      * intro E. apply in_app_or in Hw. destruct Hw as [Hw|[Hw|[]]]; [exact (I3 _ _ Hw E)|].
        inversion Hw; subst. specialize (B _ _ I1). lia.
  - destruct H as [-> ->]. exists n. split; [reflexivity|]. split; [left; reflexivity|].
    split; intros j w [Hw|[]]; inversion Hw; subst; [lra|lia].
Qed.
Lemma step_greatest (l : list (nat * Q)) m k n (v : option Q) :
  first_least (fun a b => b < a) l m k -> (forall j w, In (j, w) l -> (j < n)%nat) ->
  first_least (fun a b => b < a) (l ++ match v with Some q => [(n, q)] | None => [] end)
    (if ogt v m then v else m) (if ogt v m then Z.of_nat n else k).
Proof.
  intros H B. destruct v as [q|]; cbn [ogt]; [|rewrite app_nil_r; destruct m; exact H].
  destruct m as [p|]; cbn in *.
  - destruct H as (i & -> & I1 & I2 & I3). destruct (Qltb_reflect p q) as [L|L].
    + exists n. split; [reflexivity|]. split; [apply in_or_app; right; left; reflexivity|]. split; intros j w Hw.
      * apply in_app_or in Hw. destruct Hw as [Hw|[Hw|[]]]; [specialize (I2 _ _ Hw); lra|inversion Hw; subst; lra].
      * intro E. apply in_app_or in Hw. destruct Hw as [Hw|[Hw|[]]]; [specialize (I2 _ _ Hw); lra|inversion Hw; subst; lia].
    + exists i. split; [reflexivity|]. split; [apply in_or_app; left; exact I1|]. split; intros j w Hw.
      * apply in_app_or in Hw. destruct Hw as [Hw|[Hw|[]]]; [exact (I2 _ _ Hw)|inversion Hw; subst; exact L].
      * intro E. apply in_app_or in Hw. destruct Hw as [Hw|[Hw|[]]]; [exact (I3 _ _ Hw E)|].
        inversion Hw; subst. specialize (B _ _ I1). lia.
  - destruct H as [-> ->]. exists n. split; [reflexivity|]. split; [left; reflexivity|].
    split; intros j w [Hw|[]]; inversion Hw; subst; [lra|lia].
Qed.

Lemma set_new_summary : set_summary dset_new.
Proof. split; [intros [|] ? ?; discriminate|]. repeat split. Qed.

(** Adding to a correctly summarised set always succeeds and keeps the summary correct. *)
Theorem add_disjunction_summary :
  forall s d, set_summary s ->
  exists s', addDisjunction s d = Some s' /\ set_summary s' /\
    ds_disjs s' = ds_disjs s ++ [with_id d (Z.of_nat (length (ds_disjs s)))].
Proof.
  intros s d (S0 & S1 & S2 & S3). unfold addDisjunction, ds_updateObjValue. cbv zeta.
  assert (A : negb ((d_id (with_id d (Z.of_nat (length (ds_disjs s)))) <? 0)%Z || (-1 <? 0)%Z
           || Z.eqb (d_id (with_id d (Z.of_nat (length (ds_disjs s))))) (-1)) = false)
    by (rewrite negb_false_iff, !orb_true_iff; left; right; reflexivity).
  rewrite A. eexists. split; [reflexivity|]. split; [|reflexivity].
  change ((0 <=? -1)%Z) with false. cbn match.
  split; [|split; [|split]]; cbn [ds_disjs ds_best ds_best_i ds_worst ds_worst_i ds_iobj ds_iobj_i].
  - intros i e H. destruct (lt_eq_lt_dec i (length (ds_disjs s))) as [[L|L]|L].
    + rewrite nth_error_app1 in H by exact L. exact (S0 i e H).
    + subst i. rewrite nth_error_app2, Nat.sub_diag in H by lia. cbn in H. inversion H; subst. reflexivity.
    + rewrite (proj2 (nth_error_None _ _)) in H; [discriminate|]. rewrite app_length. cbn. lia.
  - rewrite finite_at_app. cbn [with_id d_id d_best finite_at Nat.add].
    apply (step_least _ _ _ (length (ds_disjs s)) (d_best d) S1). intros j w Hw. apply finite_at_bound in Hw. lia.
  - rewrite finite_at_app. cbn [with_id d_id d_worst finite_at Nat.add].
    apply (step_greatest _ _ _ (length (ds_disjs s)) (d_worst d) S2). intros j w Hw. apply finite_at_bound in Hw. lia.
  - rewrite finite_at_app. cbn [with_id d_id d_iobj finite_at Nat.add].
    apply (step_least _ _ _ (length (ds_disjs s)) (d_iobj d) S3). intros j w Hw. apply finite_at_bound in Hw. lia.
Qed.
Print Assumptions add_disjunction_summary.

(** After adding any list of disjunctions to an empty set: the summary is correct, position and id
    agree, and lookup by id and by position give the same disjunction. *)
Fixpoint add_all (s : dset) (l : list disj) : option dset :=
  match l with [] => Some s | d :: r => match addDisjunction s d with Some s' => add_all s' r | None => None end end.

Theorem disjunction_set_summary :
  forall l, exists s, add_all dset_new l = Some s /\ set_summary s /\ length (ds_disjs s) = length l /\
    (forall i d, nth_error l i = Some d ->
       getDisjunction s i = Some (with_id d (Z.of_nat i)) /\ getDisjunctionById s (Z.of_nat i) = Some (with_id d (Z.of_nat i))) /\
    (forall k, ~ (0 <= k < Z.of_nat (length l))%Z -> getDisjunctionById s k = None).
Proof.
  assert (G : forall l s, set_summary s -> exists s', add_all s l = Some s' /\ set_summary s' /\
     (forall i d, nth_error (ds_disjs s) i = Some d -> nth_error (ds_disjs s') i = Some d) /\
     length (ds_disjs s') = (length (ds_disjs s) + length l)%nat /\
     (forall i d, nth_error l i = Some d ->
        nth_error (ds_disjs s') (length (ds_disjs s) + i) = Some (with_id d (Z.of_nat (length (ds_disjs s) + i))))).
  { induction l as [|d r IH]; intros s H; cbn [add_all].
    - exists s. split; [reflexivity|]. split; [exact H|]. split; [auto|]. split; [cbn; lia|]. intros [|] ? ?; discriminate.
    - destruct (add_disjunction_summary s d H) as (s1 & A1 & A2 & A3). rewrite A1.
      destruct (IH s1 A2) as (s' & B1 & B2 & B3 & B4 & B5). exists s'. split; [exact B1|]. split; [exact B2|].
      assert (L : length (ds_disjs s1) = S (length (ds_disjs s))) by (rewrite A3, app_length; cbn; lia).
      split; [|split].
      + intros i e He. apply B3. rewrite A3. rewrite nth_error_app1; [exact He|]. apply nth_error_Some. congruence.
      + rewrite B4, L. cbn. lia.
      + intros [|i] e He; cbn in He.
        * inversion He; subst. rewrite Nat.add_0_r. apply B3. rewrite A3. rewrite nth_error_app2, Nat.sub_diag by lia. reflexivity.
        * replace (length (ds_disjs s) + S i)%nat with (length (ds_disjs s1) + i)%nat by lia. apply B5, He. }
  intro l. destruct (G l dset_new set_new_summary) as (s & A1 & A2 & _ & A4 & A5). cbn [dset_new ds_disjs length Nat.add] in *.
  exists s. split; [exact A1|]. split; [exact A2|]. split; [exact A4|].
  assert (F : forall L k, getDisjunctionById {| ds_disjs := L; ds_best := None; ds_best_i := 0; ds_worst := None; ds_worst_i := 0; ds_iobj := None; ds_iobj_i := 0; ds_isol := None |} k = find (fun d => Z.eqb (d_id d) k) L) by reflexivity. clear F.
  assert (F : forall L off k d, (forall i d, nth_error L i = Some d -> d_id d = Z.of_nat (off + i)) -> nth_error L k = Some d ->
     find (fun d => Z.eqb (d_id d) (Z.of_nat (off + k))) L = Some d).
  { induction L as [|e L IH]; intros off k d HL Hk; [destruct k; discriminate|]. cbn [find].
    rewrite (HL 0%nat e eq_refl). destruct k as [|k]; cbn in Hk.
    - inversion Hk; subst. rewrite Z.eqb_refl. reflexivity.
    - destruct (Z.eqb_spec (Z.of_nat (off + 0)) (Z.of_nat (off + S k))) as [X|X]; [lia|].
      replace (off + S k)%nat with (S off + k)%nat by lia. apply IH; [|exact Hk].
      intros i d' Hd'. replace (S off + i)%nat with (off + S i)%nat by lia. apply HL. exact Hd'. }
  split.
  - intros i d Hd. split; [apply A5, Hd|]. unfold getDisjunctionById.
    exact (F _ 0%nat i _ (proj1 A2) (A5 i d Hd)).
  - intros k Hk. unfold getDisjunctionById. destruct (find _ _) as [d|] eqn:E; [|reflexivity]. exfalso.
    apply find_some in E. destruct E as [E1 E2]. apply Z.eqb_eq in E2. destruct (In_nth_error _ _ E1) as [i Hi].
    rewrite (proj1 A2 i d Hi) in E2. assert (i < length (ds_disjs s))%nat by (apply nth_error_Some; congruence). lia.
Qed.
Print Assumptions disjunction_set_summary.

(** Preparing a set: every disjunction is prepared in order until one reports an optimal integer
    solution; the values of the set never get worse and bound those of all prepared disjunctions. *)
Definition ole (a b : option Q) : Prop := olt b a = false.
Definition oge (a b : option Q) : Prop := ogt b a = false.

Lemma olt_trans_le a b c : ole a b -> ole b c -> ole a c.
Proof.
  unfold ole, olt. destruct a, b, c; try discriminate; try reflexivity. rewrite !Qltb_ge. intros. lra.
Qed.
Lemma ogt_trans_ge a b c : oge a b -> oge b c -> oge a c.
Proof.
  unfold oge, ogt. destruct a, b, c; try discriminate; try reflexivity. rewrite !Qltb_ge. intros. lra.
Qed.
Lemma ole_refl a : ole a a.
Proof. unfold ole, olt. destruct a; [|reflexivity]. apply Qltb_ge, Qle_refl. Qed.
Lemma oge_refl a : oge a a.
Proof. unfold oge, ogt. destruct a; [|reflexivity]. apply Qltb_ge, Qle_refl. Qed.
Lemma olt_ole a b : olt a b = true -> ole a b.
Proof. unfold ole, olt. destruct a, b; try discriminate; try reflexivity. rewrite Qltb_lt, Qltb_ge. lra. Qed.
Lemma ogt_oge a b : ogt a b = true -> oge a b.
Proof. unfold oge, ogt. destruct a, b; try discriminate; try reflexivity. rewrite Qltb_lt, Qltb_ge. lra. Qed.

Lemma update_bounds s d i s' : ds_updateObjValue s d i = Some s' ->
  ole (ds_best s') (ds_best s) /\ ole (ds_best s') (d_best d) /\ oge (ds_worst s') (ds_worst s) /\ oge (ds_worst s') (d_worst d) /\
  ole (ds_iobj s') (ds_iobj s) /\ ole (ds_iobj s') (d_iobj d) /\ ds_disjs s' = ds_disjs s.
Proof.
  unfold ds_updateObjValue. cbv zeta. destruct (negb _); [discriminate|]. intro H. inversion H; subst. cbn.
  destruct (olt (d_best d) (ds_best s)) eqn:A; destruct (ogt (d_worst d) (ds_worst s)) eqn:B;
    destruct (olt (d_iobj d) (ds_iobj s)) eqn:C; repeat apply conj; first [apply ole_refl|apply oge_refl|apply olt_ole; assumption|apply ogt_oge; assumption|assumption|reflexivity].
Qed.

Theorem prepare_set :
  forall prep s e s', ds_prepare prep s = Some (e, s') ->
  exists k, (k <= length (ds_disjs s))%nat /\
    (e = Some true \/ k = length (ds_disjs s)) /\ (e = None <-> ds_disjs s = []) /\
    length (ds_disjs s') = length (ds_disjs s) /\
    (forall i d, nth_error (ds_disjs s) i = Some d ->
       nth_error (ds_disjs s') i = Some (if (i <? k)%nat then snd (prep i d) else d) /\
       ((i < k)%nat -> fst (prep i d) = true -> S i = k /\ e = Some true)) /\
    (forall i d, (i < k)%nat -> nth_error (ds_disjs s') i = Some d ->
       ole (ds_best s') (d_best d) /\ oge (ds_worst s') (d_worst d) /\ ole (ds_iobj s') (d_iobj d)) /\
    ole (ds_best s') (ds_best s) /\ oge (ds_worst s') (ds_worst s) /\ ole (ds_iobj s') (ds_iobj s).
Proof.
  intros prep s e s' H. unfold ds_prepare in H.
  assert (G : forall todo done last s0 e s', ds_prepare_loop prep (length done) done todo last s0 = Some (e, s') ->
     (forall d, In d done -> ole (ds_best s0) (d_best d) /\ oge (ds_worst s0) (d_worst d) /\ ole (ds_iobj s0) (d_iobj d)) ->
     exists k, (k <= length todo)%nat /\ (e = Some true \/ k = length todo) /\
       (todo = [] -> e = last) /\ (todo <> [] -> e <> None) /\
       length (ds_disjs s') = (length done + length todo)%nat /\
       (forall i d, nth_error done i = Some d -> nth_error (ds_disjs s') i = Some d) /\
       (forall i d, nth_error todo i = Some d ->
          nth_error (ds_disjs s') (length done + i) = Some (if (i <? k)%nat then snd (prep (length done + i)%nat d) else d) /\
          ((i < k)%nat -> fst (prep (length done + i)%nat d) = true -> S i = k /\ e = Some true)) /\
       (forall i d, (i < length done + k)%nat -> nth_error (ds_disjs s') i = Some d ->
          ole (ds_best s') (d_best d) /\ oge (ds_worst s') (d_worst d) /\ ole (ds_iobj s') (d_iobj d)) /\
       ole (ds_best s') (ds_best s0) /\ oge (ds_worst s') (ds_worst s0) /\ ole (ds_iobj s') (ds_iobj s0)).
  { clear H s s' e. induction todo as [|d r IH]; intros done last s0 e s' H Hd; cbn [ds_prepare_loop] in H.
    - inversion H; subst. cbn [ds_disjs ds_best ds_worst ds_iobj length]. exists O.
      split; [lia|]. split; [right; reflexivity|]. split; [reflexivity|]. split; [congruence|]. split; [lia|].
      split; [auto|]. split; [intros [|] ? ?; discriminate|]. split.
      { intros i d _ X. apply nth_error_In in X. apply Hd, X. }
      auto using ole_refl, oge_refl.
    - destruct (negb _); [discriminate|]. destruct (prep (length done) d) as [stop d'] eqn:E.
      destruct (ds_updateObjValue s0 d' _) as [s1|] eqn:U; [|discriminate].
      destruct (update_bounds _ _ _ _ U) as (U1 & U2 & U3 & U4 & U5 & U6 & U7).
      assert (Hd' : forall e0, In e0 (done ++ [d']) -> ole (ds_best s1) (d_best e0) /\ oge (ds_worst s1) (d_worst e0) /\ ole (ds_iobj s1) (d_iobj e0)).
      { intros e0 He. apply in_app_or in He. destruct He as [He|[<-|[]]]; [|auto]. destruct (Hd e0 He) as (X & Y & Z).
        split; [exact (olt_trans_le _ _ _ U1 X)|]. split; [exact (ogt_trans_ge _ _ _ U3 Y)|exact (olt_trans_le _ _ _ U5 Z)]. }
      destruct stop.
      + inversion H; subst. cbn [ds_disjs ds_best ds_worst ds_iobj length]. exists 1%nat.
        split; [lia|]. split; [left; reflexivity|]. split; [discriminate|]. split; [discriminate|].
        split; [rewrite app_length; cbn; lia|]. split.
        { intros i e0 X. rewrite nth_error_app1; [exact X|]. apply nth_error_Some. congruence. }
        split.
        { intros [|i] e0 X; cbn in X.
          - inversion X; subst. rewrite Nat.add_0_r, nth_error_app2, Nat.sub_diag, E by lia. cbn. split; [reflexivity|auto].
          - rewrite nth_error_app2 by lia. replace (length done + S i - length done)%nat with (S i) by lia. cbn.
            split; [exact X|]. intros; lia. }
        split; [|auto].
        intros i e0 L X. apply Hd'. apply in_or_app. destruct (le_lt_dec (length done) i) as [M|M].
        * right. replace i with (length done) in X by lia. rewrite nth_error_app2, Nat.sub_diag in X by lia. cbn in X. inversion X; left; reflexivity.
        * left. rewrite nth_error_app1 in X by exact M. exact (nth_error_In _ _ X).
      + replace (S (length done)) with (length (done ++ [d'])) in H by (rewrite app_length; cbn; lia).
        destruct (IH (done ++ [d']) (Some false) s1 e s' H Hd') as (k & K1 & K2 & K3 & K4 & K5 & K6 & K7 & K8 & K9 & K10 & K11).
        rewrite app_length in *. cbn [length] in *. exists (S k).
        split; [lia|]. split; [destruct K2; [left; assumption|right; lia]|]. split; [discriminate|].
        split. { intros _. destruct r; [rewrite (K3 eq_refl); discriminate|apply K4; discriminate]. }
        split; [lia|]. split.
        { intros i e0 X. apply K6. rewrite nth_error_app1; [exact X|]. apply nth_error_Some. congruence. }
        split.
        { intros [|i] e0 X; cbn in X.
          - inversion X; subst. rewrite Nat.add_0_r, E. cbn [fst snd Nat.ltb Nat.leb]. split; [|discriminate].
            apply K6. rewrite nth_error_app2, Nat.sub_diag by lia. reflexivity.
          - destruct (K7 i e0 X) as [L1 L2]. replace (length done + S i)%nat with (length done + 1 + i)%nat by lia.
            split; [exact L1|]. intros M1 M2. destruct (L2 ltac:(lia) M2) as [N1 N2]. split; [lia|exact N2]. }
        split; [intros i e0 L X; apply (K8 i e0); [lia|exact X]|].
        split; [exact (olt_trans_le _ _ _ K9 U1)|]. split; [exact (ogt_trans_ge _ _ _ K10 U3)|exact (olt_trans_le _ _ _ K11 U5)]. }
  destruct (G (ds_disjs s) [] None s e s' H ltac:(intros ? [])) as (k & K1 & K2 & K3 & K4 & K5 & K6 & K7 & K8 & K9 & K10 & K11).
  cbn [length Nat.add] in *. exists k. split; [exact K1|]. split; [exact K2|]. split.
  { destruct (ds_disjs s); split; intro X; [reflexivity|apply K3; reflexivity|exfalso; apply (K4 ltac:(discriminate)), X|discriminate]. }
  split; [exact K5|]. split; [exact K7|]. split; [exact K8|]. auto.
Qed.
Print Assumptions prepare_set.

(** REFUTED: the set's best value need not be that of any of its disjunctions: when preparing a
    disjunction makes its best value worse, the set keeps the old one. *)
Theorem set_best_stale_refuted :
  exists prep s0 s e s', add_all dset_new s0 = Some s /\ set_summary s /\ ds_prepare prep s = Some (e, s') /\
    ds_best s' = Some 1 /\ forall d, In d (ds_disjs s') -> d_best d = Some 5.
Proof.
  exists (fun _ d => (false, updateObjValue (with_id disj_new (d_id d)) 5)), [updateObjValue disj_new 1].
  destruct (disjunction_set_summary [updateObjValue disj_new 1]) as (s & A & B & _). exists s.
  vm_compute in A. inversion A; subst s.
  eexists. eexists. split; [reflexivity|]. split; [exact B|]. split; [reflexivity|]. split; [reflexivity|].
  intros d [<-|[]]; reflexivity.
Qed.
Print Assumptions set_best_stale_refuted.

(** REFUTED: adding split disjunctions never sets best / worst values: they stay "none" although the
    terms have objective values. *)
Theorem split_best_refuted :
  exists AWAY isint x ans d' t, split_prepare AWAY isint x ans [0%nat] disj_new = Some (DSuccess, d') /\
    In t (d_terms d') /\ td_obj t = Some 1 /\ d_best d' = None.
Proof.
  exists (1#1000), (fun _ => true), (fun _ => 1#2), (fun (_ : nat) (_ : bool) => BOptimal 1). do 2 eexists.
  split; [reflexivity|]. split; [left; reflexivity|]. split; reflexivity.
Qed.
Print Assumptions split_best_refuted.

(** Three disjunctions: the best value 1 occurs twice; the first position is reported. *)
Example summary_example :
  exists s, add_all dset_new [updateObjValue (updateObjValue disj_new 3) 7; updateObjValue disj_new 1; updateObjValue disj_new 1; disj_new] = Some s /\
    ds_best s = Some 1 /\ ds_best_i s = 1%Z /\ ds_worst s = Some 7 /\ ds_worst_i s = 0%Z /\ ds_iobj_i s = (-1)%Z.
Proof. eexists. split; [vm_compute; reflexivity|]. vm_compute. repeat split. Qed.
