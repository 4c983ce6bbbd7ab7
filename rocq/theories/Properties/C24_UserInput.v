(** C24: disjunctions and objectives supplied by the user. *)
From Verif Require Import Prelude Model.Tolerance Model.Generator Model.Generate Spec.GenSpec
  Proofs.GeneratorP Proofs.GenExamples.

(** The call gets as far as choosing a disjunction: there are disjunctions to build, time is left and
    cuts are allowed. *)
Definition reaches_disjunction (v : vpc) (o : callans) : Prop :=
  past_entry v o /\ (0 < getCutLimit (g_limit (v_g v)) (ca_nfrac o))%Z.

Lemma fresh_not_limited v given o g : fresh_state v given o g -> (0 < getCutLimit (g_limit (v_g v)) (ca_nfrac o))%Z ->
  reachedCutLimit g = false.
Proof.
  intros F Hl. destruct (fresh_counters _ _ _ _ F) as (N & _ & _ & _ & _ & _ & L & _).
  unfold reachedCutLimit, countDisj. rewrite N, L. cbn [firstn filter length].
  destruct (g_mode g); apply Z.leb_gt; cbn; lia.
Qed.

(** REFUTED, for every setting: a generator that holds a user disjunction (or set of disjunctions)
    never generates a cut from it; the call ends in exit(1). *)
Theorem user_disjunction_refuted E v given o :
  v_disj v = true \/ v_set v = true -> reaches_disjunction v o -> generateCuts E v given o = None.
Proof.
  intros Hd [[He Ht] Hl]. unfold generateCuts. cbv zeta.
  assert (Eg : negb match v_pmode v with DISJ_SET_PBB => true | _ => false end && (v_terms v =? 0)%Z = false).
  { destruct He as [->|He]; [reflexivity|]. apply andb_false_iff. right. apply Z.eqb_neq. exact He. }
  rewrite Eg, Ht.
  destruct (beginRound (v_g (with_g v (with_mode (v_g v) (v_pmode v)))) given) as [g0|] eqn:Eb; [|reflexivity].
  assert (F : fresh_state v given o (with_limit g0 (getCutLimit (g_limit g0) (ca_nfrac o)))).
  { exists g0. split; [exact Eb|reflexivity]. }
  rewrite (fresh_not_limited _ _ _ _ F Hl). cbn [andb].
  destruct Hd as [-> | ->]; [reflexivity|]. cbn [negb]. rewrite andb_false_r. reflexivity.
Qed.
Print Assumptions user_disjunction_refuted.
Example user_disjunction_witness : reaches_disjunction (with_disj exv true false) exo /\ v_disj (with_disj exv true false) = true.
Proof. split; [|reflexivity]. split; [split; [right; discriminate|reflexivity]|]. vm_compute. reflexivity. Qed.

(** REFUTED, for every setting: user objectives are discarded before anything is solved; the result does
    not depend on them, and the generator has none left afterwards. *)
Theorem user_objectives_refuted E v given o u :
  past_entry v o ->
  generateCuts E (with_user v u) given o = generateCuts E (with_user v []) given o /\
  (forall v' cuts, generateCuts E (with_user v u) given o = Some (v', cuts) -> v_user v' = []).
Proof.
  intros [He Ht]. unfold generateCuts. cbv zeta. cbn [with_user with_g v_pmode v_terms v_g v_tikz v_disj v_set].
  assert (Eg : negb match v_pmode v with DISJ_SET_PBB => true | _ => false end && (v_terms v =? 0)%Z = false).
  { destruct He as [->|He]; [reflexivity|]. apply andb_false_iff. right. apply Z.eqb_neq. exact He. }
  rewrite Eg, Ht. split; [reflexivity|]. intros v' cuts H.
  destruct (beginRound _ given) as [g0|]; [|discriminate].
  destruct (reachedCutLimit _ && negb _); [injection H as <- <-; reflexivity|].
  destruct (negb (v_disj v) && negb (v_set v)); [|discriminate].
  destruct (v_pmode v); try discriminate;
    try (destruct (v_terms v <? 2)%Z; [injection H as <- <-; reflexivity|]);
    (destruct (negb (ca_optimal o)); [discriminate|]);
    (destruct (matchStatus (ca_disj o)); try (injection H as <- <-; reflexivity));
    (destruct (_ && Nat.eqb _ _); [discriminate|]);
    (destruct (rootCuts _ _ _) as [g3 hit]; destruct hit; [injection H as <- <-; reflexivity|]);
    (destruct (negb (ca_root_ok o)); [discriminate|]);
    (destruct (disjLoop _ _ _ _ _ _ _) as [[g4 s]|]; [|discriminate]; injection H as <- <-; reflexivity).
Qed.
Print Assumptions user_objectives_refuted.
Example user_objectives_witness : past_entry exv exo /\ v_user exv <> [].
Proof. split; [split; [right; discriminate|reflexivity]|discriminate]. Qed.

(** REFUTED: a generator can be used once.  After a call that got as far as a disjunction, the
    generator holds that disjunction, and the next call that needs one ends in exit(1). *)
Theorem second_call_refuted E v given o v' cuts E2 given2 o2 :
  generateCuts E v given o = Some (v', cuts) -> reaches_disjunction v o ->
  (v_pmode v = PARTIAL_BB -> (2 <= v_terms v)%Z) ->
  reaches_disjunction v' o2 -> generateCuts E2 v' given2 o2 = None.
Proof.
  intros H [[He Ht] Hl] Hterms Hr. apply user_disjunction_refuted; [|exact Hr].
  unfold generateCuts in H. cbv zeta in H.
  assert (Eg : negb match v_pmode v with DISJ_SET_PBB => true | _ => false end && (v_terms v =? 0)%Z = false).
  { destruct He as [->|He]; [reflexivity|]. apply andb_false_iff. right. apply Z.eqb_neq. exact He. }
  rewrite Eg, Ht in H.
  destruct (beginRound (v_g (with_g v (with_mode (v_g v) (v_pmode v)))) given) as [g0|] eqn:Eb; [|discriminate].
  assert (F : fresh_state v given o (with_limit g0 (getCutLimit (g_limit g0) (ca_nfrac o)))).
  { exists g0. split; [exact Eb|reflexivity]. }
  rewrite (fresh_not_limited _ _ _ _ F Hl) in H. cbn [andb] in H.
  destruct (negb (v_disj v) && negb (v_set v)); [|discriminate].
  destruct (v_pmode v); try discriminate;
    try (replace (v_terms v <? 2)%Z with false in H by (symmetry; apply Z.ltb_ge; auto));
    (destruct (negb (ca_optimal o)); [discriminate|]);
    (destruct (matchStatus (ca_disj o)); try (injection H as <- <-; cbn; auto; fail));
    (destruct (_ && Nat.eqb _ _); [discriminate|]);
    (destruct (rootCuts _ _ _) as [g3 hit]; destruct hit; [injection H as <- <-; cbn; auto|]);
    (destruct (negb (ca_root_ok o)); [discriminate|]);
    (destruct (disjLoop _ _ _ _ _ _ _) as [[g4 s]|]; [|discriminate]; injection H as <- <-; cbn; auto).
Qed.
Print Assumptions second_call_refuted.

Example second_call_witness :
  exists v' cuts, generateCuts exE exv exgiven exo = Some (v', cuts) /\ reaches_disjunction exv exo /\
    (v_pmode exv = PARTIAL_BB -> (2 <= v_terms exv)%Z) /\ reaches_disjunction v' exo /\ generateCuts exE v' exgiven exo = None.
Proof.
  exists (match generateCuts exE exv exgiven exo with Some (v, _) => v | None => exv end). eexists.
  split; [vm_compute; reflexivity|]. split; [split; [split; [right; discriminate|reflexivity]|vm_compute; reflexivity]|].
  split; [vm_compute; intros _ K; discriminate K|].
  split; [split; [split; [right; vm_compute; discriminate|reflexivity]|vm_compute; reflexivity]|]. vm_compute. reflexivity.
Qed.
