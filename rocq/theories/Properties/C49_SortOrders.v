(** C49: the orderings used for sorting and for the set of rays. *)
From Verif Require Import Prelude Model.Ordering Spec.OrderSpec Proofs.ToleranceP.

Lemma swo_on_keys {A} (k : A -> key) : (forall a, k a <> NaN) ->
  strict_weak_order (fun a b => key_lt (k a) (k b)) /\ strict_weak_order (fun a b => key_gt (k a) (k b)).
Proof.
  intro N. assert (X : forall a, exists q, k a = Num q) by (intro a; specialize (N a); destruct (k a); [eexists; reflexivity|congruence]).
  assert (L : forall p q, key_lt (Num p) (Num q) = true <-> p < q) by (intros; cbn; apply Qltb_lt).
  assert (G : forall p q, key_lt (Num p) (Num q) = false <-> q <= p).
  { intros p q. cbn [key_lt]. destruct (Qltb_reflect p q); split; intro; try discriminate; try lra; try reflexivity. }
  unfold key_gt. split; (split; [|split; [|split]]);
    [intro a|intros a b|intros a b c|intros a b c|intro a|intros a b|intros a b c|intros a b c];
    destruct (X a) as [qa ->]; try (destruct (X b) as [qb ->]); try (destruct (X c) as [qc ->]); rewrite ?L, ?G; intros; try split; lra.
Qed.
(** Sorting an array without NaN, by activity or by index: strict weak orders. *)
Theorem sort_orders : forall arr : nat -> key, (forall i, arr i <> NaN) ->
  strict_weak_order (index_cmp_asc arr) /\ strict_weak_order (index_cmp_dsc arr).
Proof. intros arr H. exact (swo_on_keys arr H). Qed.
Print Assumptions sort_orders.
Theorem activity_orders : forall ok : rowAndActivity -> bool, (forall r, ok r = true -> ra_activity r <> NaN) ->
  strict_weak_order (fun a b : {r | ok r = true} => by_activity_asc (proj1_sig a) (proj1_sig b)) /\
  strict_weak_order (fun a b : {r | ok r = true} => by_activity_desc (proj1_sig a) (proj1_sig b)).
Proof. intros ok H. apply (swo_on_keys (fun a : {r | ok r = true} => ra_activity (proj1_sig a))). intros [r R]. exact (H r R). Qed.
Print Assumptions activity_orders.

(** Refuted when a key is NaN, as (ortho[row] - ortho[point]) / twoNorm(p2 - p1) is for two equal points
    (PRLP.cpp:1117-1119): incomparability is no longer transitive. *)
Theorem nan_key_refuted : exists arr : nat -> key, ~ strict_weak_order (index_cmp_asc arr) /\ ~ strict_weak_order (index_cmp_dsc arr).
Proof.
  exists (fun i => match i with O => Num 0 | 1%nat => NaN | _ => Num 1 end). split; intros (_ & _ & _ & W).
  - destruct (W 0%nat 1%nat 2%nat eq_refl eq_refl eq_refl eq_refl) as [H _]. revert H. vm_compute. discriminate.
  - destruct (W 0%nat 1%nat 2%nat eq_refl eq_refl eq_refl eq_refl) as [_ H]. revert H. vm_compute. discriminate.
Qed.
Print Assumptions nan_key_refuted.

(** Refuted for rays: two rays can each come before the other; and rays that differ only in their index
    are the same for the set, so the second is lost. *)
Theorem ray_order_refuted :
  (exists a b, ray_lt a b = true /\ ray_lt b a = true) /\ ~ strict_weak_order ray_lt /\
  (exists a b, ri_index a <> ri_index b /\ equivalent ray_lt a b /\ set_insert b (set_insert a []) = [a]).
Proof.
  assert (A : exists a b, ray_lt a b = true /\ ray_lt b a = true).
  { exists {| ri_index := 0; ri_min := 1; ri_avg := 0 |}, {| ri_index := 1; ri_min := 95 # 100; ri_avg := 1 |}. split; vm_compute; reflexivity. }
  split; [exact A|]. split.
  - intros (_ & As & _). destruct A as (a & b & H1 & H2). apply As in H1. congruence.
  - exists {| ri_index := 0; ri_min := 1; ri_avg := 1 |}, {| ri_index := 1; ri_min := 1; ri_avg := 1 |}.
    split; [discriminate|]. split; [split; vm_compute; reflexivity|]. vm_compute. reflexivity.
Qed.
Print Assumptions ray_order_refuted.
(** What does hold: the order is irreflexive, every two rays that differ in smallest or average angle are
    ordered one way or the other, and it is the documented order when the smallest angles are at least 0.1 apart. *)
Theorem ray_order_limits : (forall a, ray_lt a a = false) /\
  (forall a b, equivalent ray_lt a b -> ri_min a == ri_min b /\ ri_avg a == ri_avg b) /\
  (forall a b, 1 # 10 <= Qabs (ri_min a - ri_min b) -> (ray_lt a b = true <-> ri_min b < ri_min a)).
Proof.
  split; [|split].
  - intro a. unfold ray_lt. destruct (Qltb_reflect (ri_min a) (ri_min a)); [lra|]. destruct (Qltb_reflect (ri_avg a) (ri_avg a)); [lra|].
    rewrite andb_false_r. reflexivity.
  - intros a b [H1 H2]. unfold ray_lt in *. apply orb_false_iff in H1, H2. destruct H1 as [H1 H1'], H2 as [H2 H2'].
    destruct (Qltb_reflect (ri_min b) (ri_min a)); [discriminate|]. destruct (Qltb_reflect (ri_min a) (ri_min b)); [discriminate|].
    assert (E : ri_min a == ri_min b) by lra. split; [exact E|].
    assert (V : forall p q, p == q -> isVal p q (1 # 10) = true).
    { intros p q Q. apply isVal_iff. rewrite Q. assert (Z : q - q == 0) by ring. rewrite Z. reflexivity. }
    rewrite (V _ _ E) in H1'. rewrite (V (ri_min b) (ri_min a)) in H2' by (symmetry; exact E). cbn [andb] in *.
    destruct (Qltb_reflect (ri_avg b) (ri_avg a)); [discriminate|]. destruct (Qltb_reflect (ri_avg a) (ri_avg b)); [discriminate|]. lra.
  - intros a b H. unfold ray_lt. assert (isVal (ri_min a) (ri_min b) (1 # 10) = false) as ->.
    { destruct (isVal (ri_min a) (ri_min b) (1 # 10)) eqn:V; [|reflexivity]. apply isVal_iff in V. lra. }
    cbn [andb]. rewrite orb_false_r. apply Qltb_lt.
Qed.
Print Assumptions ray_order_limits.

(** Updating a ray: over any sequence of batches of new cuts its smallest angle is the minimum and its
    average the mean of the first value and of all the angles seen. *)
Definition updates (batches : list (list Q)) (r : rayinfo) : rayinfo :=
  fst (fold_left (fun acc b => (update_ray b (snd acc) (snd acc + length b) (fst acc), (snd acc + length b)%nat)) batches (r, O)).
Theorem ray_update : forall batches r,
  let r' := updates batches r in let all := concat batches in
  ri_index r' = ri_index r /\
  (forall p, In p (ri_min r :: all) -> ri_min r' <= p) /\ In (ri_min r') (ri_min r :: all) /\
  ri_avg r' == (ri_avg r + Qsumf (fun p => p) all) / inject_Z (Z.of_nat (length all) + 1).
Proof.
  assert (MN : forall l m, (forall p, In p (m :: l) -> fold_left (fun m p => if Qltb p m then p else m) l m <= p) /\
                           In (fold_left (fun m p => if Qltb p m then p else m) l m) (m :: l)).
  { induction l as [|q l IH]; intro m; cbn [fold_left].
    - split; [intros p [->|[]]; lra|left; reflexivity].
    - destruct (IH (if Qltb q m then q else m)) as [I1 I2]. split.
      + intros p [<-|[<-|Hp]]; [| |apply I1; right; exact Hp]; specialize (I1 _ (or_introl eq_refl));
          (eapply Qle_trans; [exact I1|]); destruct (Qltb_reflect q m); lra.
      + destruct I2 as [I2|I2]; [|right; right; exact I2]. rewrite <- I2. destruct (Qltb q m); [right; left|left]; reflexivity. }
  assert (SM : forall l a, fold_left Qplus l a == a + Qsumf (fun p => p) l).
  { induction l as [|q l IH]; intro a; cbn [fold_left]; [change (Qsumf _ []) with 0; ring|]. rewrite IH, Qsumf_cons. ring. }
  intros batches r. cbv zeta. unfold updates.
  assert (G : forall bs seen r1,
     ri_index r1 = ri_index r -> (forall p, In p (ri_min r :: seen) -> ri_min r1 <= p) -> In (ri_min r1) (ri_min r :: seen) ->
     ri_avg r1 * inject_Z (Z.of_nat (length seen) + 1) == ri_avg r + Qsumf (fun p => p) seen ->
     let r2 := fst (fold_left (fun acc b => (update_ray b (snd acc) (snd acc + length b) (fst acc), (snd acc + length b)%nat)) bs (r1, length seen)) in
     let all := seen ++ concat bs in
     ri_index r2 = ri_index r /\ (forall p, In p (ri_min r :: all) -> ri_min r2 <= p) /\ In (ri_min r2) (ri_min r :: all) /\
     ri_avg r2 * inject_Z (Z.of_nat (length all) + 1) == ri_avg r + Qsumf (fun p => p) all).
  { induction bs as [|b bs IH]; intros seen r1 H1 H2 H3 H4; cbn [fold_left fst snd concat].
    - cbv zeta. rewrite app_nil_r. auto.
    - specialize (IH (seen ++ b) (update_ray b (length seen) (length seen + length b) r1)). rewrite app_length in IH.
      cbv zeta in IH |- *. rewrite <- app_assoc in IH. destruct (MN b (ri_min r1)) as [M1 M2]. apply IH; clear IH.
      + exact H1.
      + unfold update_ray. cbn [ri_min]. intros p [<-|Hp].
        * eapply Qle_trans; [apply M1; left; reflexivity|]. apply H2. left. reflexivity.
        * apply in_app_or in Hp. destruct Hp as [Hp|Hp]; [|apply M1; right; exact Hp].
          eapply Qle_trans; [apply M1; left; reflexivity|]. apply H2. right. exact Hp.
      + unfold update_ray. cbn [ri_min]. destruct M2 as [M2|M2].
        * rewrite <- M2. destruct H3 as [H3|H3]; [left; exact H3|right; apply in_or_app; left; exact H3].
        * right. apply in_or_app. right. exact M2.
      + unfold update_ray. cbn [ri_avg]. rewrite SM, Qsumf_app, H4.
        assert (NZ : ~ inject_Z (Z.of_nat (length seen + length b) + 1) == 0).
        { intro Z. unfold Qeq, inject_Z in Z. cbn [Qnum Qden] in Z. lia. }
        field. exact NZ. }
  destruct (G batches [] r eq_refl) as (A & Bd & C & D).
  - intros p [->|[]]. lra.
  - left. reflexivity.
  - cbn [length]. change (inject_Z (Z.of_nat 0 + 1)) with 1. change (Qsumf _ []) with 0. ring.
  - cbn [length app] in A, Bd, C, D. split; [exact A|]. split; [exact Bd|]. split; [exact C|]. rewrite <- D.
    field. intro Z. unfold Qeq, inject_Z in Z. cbn [Qnum Qden] in Z. lia.
Qed.
Print Assumptions ray_update.
Example ray_update_meets : let r' := updates [[1 # 2; 3 # 4]; [1 # 4]] {| ri_index := 7; ri_min := 1; ri_avg := 1 |} in
  ri_index r' = 7%nat /\ ri_min r' == 1 # 4 /\ ri_avg r' == 5 # 8.
Proof. vm_compute. repeat split; reflexivity. Qed.
Example sort_meets : let arr := fun i : nat => Num (inject_Z (Z.of_nat (i * i))) in (forall i, arr i <> NaN) /\ index_cmp_asc arr 1 2 = true.
Proof. split; [discriminate|reflexivity]. Qed.
