(** C85: the settings calls leave in an LP solver, and loading a file through the library. *)
From Verif Require Import Prelude Model.LP Model.TextUtil Model.SolverHelper Model.Settings Spec.LPSpec Spec.SolverSpec Spec.SettingsSpec Proofs.ToleranceP Properties.C45_Minimisation.
#[local] Open Scope Z_scope.

Lemma srun_app l1 l2 s s' : srun s (l1 ++ l2) = Some s' <-> exists m, srun s l1 = Some m /\ srun m l2 = Some s'.
Proof.
  revert s. induction l1 as [|o l1 IH]; intro s; cbn [app srun].
  - split; [intro H; exists s; auto|intros (m & E & H); congruence].
  - destruct (sstep s o) as [s1|]; [apply IH|]. split; [discriminate|intros (m & E & _); discriminate].
Qed.
Ltac open_step H :=
  unfold setupClpForCbc, setLPSolverParameters, setupClpForStrongBranching, setTimeLimit in H;
  repeat match type of H with
  | context [if ?b then _ else _] => let E := fresh "E" in destruct b eqn:E; cbn [y_clp y_log y_clplog y_time y_special y_more y_hot y_pre_initial y_pre_resolve] in *; try discriminate
  end; injection H as <-; cbn [y_clp y_log y_clplog y_time y_special y_more y_hot y_pre_initial y_pre_resolve] in *.

(** One call: everything it does. *)
Lemma step_effect s o s' : sstep s o = Some s' ->
  y_clp s = true /\ y_clp s' = true /\
  y_time s' = match asks_time o with Some t => t | None => y_time s end /\
  y_hot s' = match asks_hot o with Some h => h | None => y_hot s end /\
  ((asks_silence o /\ y_log s' = 0 /\ y_clplog s' = 0) \/ (~ asks_silence o /\ y_log s' = y_log s /\ y_clplog s' = y_clplog s)) /\
  (is_strong o -> y_special s' = 16) /\ (~ is_strong o -> y_special s' = y_special s) /\
  y_more s' = y_more s + (if is_cbc o then 256 else 0) /\ (is_cbc o = true -> y_more s' <= 2147483647) /\
  y_pre_initial s' = (if is_cbc o then false else y_pre_initial s) /\ y_pre_resolve s' = (if is_cbc o then false else y_pre_resolve s).
Proof.
  intro H. destruct o as [t|v t|h|v t h]; cbn [sstep asks_time asks_hot asks_silence is_strong is_cbc] in *; open_step H;
    repeat match goal with
    | E : (v =? 0) = true |- _ => apply Z.eqb_eq in E
    | E : (v =? 0) = false |- _ => apply Z.eqb_neq in E
    | E : (_ <? _) = false |- _ => apply Z.ltb_ge in E
    end;
    repeat (split; [first [reflexivity|assumption|lia|tauto|intros _; reflexivity|intros []|intro; lia|intro X; exfalso; tauto|(left; repeat split; assumption)|(right; repeat split; tauto)]|]);
    first [reflexivity|tauto].
Qed.

Section General.
  Context {A : Type} (asks : sop -> option A) (f : settings -> A).
  Hypothesis Hf : forall s o s', sstep s o = Some s' -> f s' = match asks o with Some t => t | None => f s end.
  Lemma last_general l : forall s s', srun s l = Some s' -> forall v, last_asked asks (f s) l v -> f s' = v.
  Proof using Hf.
    assert (K : forall l s s', srun s l = Some s' -> (forall o, In o l -> asks o = None) -> f s' = f s).
    { clear l. induction l as [|o l IH]; cbn [srun]; intros s s' H N; [injection H as <-; reflexivity|].
      destruct (sstep s o) as [s1|] eqn:E; [|discriminate]. rewrite (IH s1 s' H (fun o' h => N o' (or_intror h))), (Hf _ _ _ E), (N o (or_introl eq_refl)). reflexivity. }
    intros s s' H v L. destruct L as [l N|l o r v S N]; [exact (K l s s' H N)|].
    apply srun_app in H. destruct H as (m & _ & H). cbn [srun] in H. destruct (sstep m o) as [s1|] eqn:E; [|discriminate].
    rewrite (K r s1 s' H N), (Hf _ _ _ E), S. reflexivity.
  Qed.
  Lemma asked_exists l d : exists v, last_asked asks d l v.
  Proof using.
    induction l as [|o l IH] using rev_ind; [exists d; constructor; intros ? []|].
    destruct (asks o) as [v|] eqn:E; [exists v; apply (LAlast asks d l o [] v E); intros ? []|].
    destruct IH as (v & [l' N|l' o' r v' S N]).
    - exists d. constructor. intros o1 I1. apply in_app_or in I1. destruct I1 as [I1|[<-|[]]]; auto.
    - exists v'. rewrite <- app_assoc. cbn [app]. constructor; [exact S|]. intros o1 I1. apply in_app_or in I1. destruct I1 as [I1|[<-|[]]]; auto.
  Qed.
End General.

(** The time limit and the limit on hot starts in force are those of the last call asking for one (and there is such a value for every sequence of calls). *)
Theorem limits_last : forall l s s', srun s l = Some s' ->
  (forall t, last_asked asks_time (y_time s) l t -> y_time s' = t) /\
  (forall h, last_asked asks_hot (y_hot s) l h -> y_hot s' = h) /\
  (exists t, last_asked asks_time (y_time s) l t) /\ (exists h, last_asked asks_hot (y_hot s) l h).
Proof.
  intros l s s' H. split; [|split; [|split; apply asked_exists]].
  - intros t. apply (last_general asks_time y_time); [|exact H]. intros a o b E. exact (proj1 (proj2 (proj2 (step_effect a o b E)))).
  - intros h. apply (last_general asks_hot y_hot); [|exact H]. intros a o b E. exact (proj1 (proj2 (proj2 (proj2 (step_effect a o b E))))).
Qed.
Print Assumptions limits_last.

(** Messages: they are off after the calls iff some call asked for silence or they were off already, and otherwise exactly as before; no call turns them on. *)
Theorem messages : forall l s s', srun s l = Some s' ->
  ((exists o, In o l /\ asks_silence o) -> y_log s' = 0 /\ y_clplog s' = 0) /\
  ((forall o, In o l -> ~ asks_silence o) -> y_log s' = y_log s /\ y_clplog s' = y_clplog s).
Proof.
  induction l as [|o l IH]; cbn [srun]; intros s s' H.
  - injection H as <-. split; [intros (o & [] & _)|split; reflexivity].
  - destruct (sstep s o) as [s1|] eqn:E; [|discriminate]. destruct (IH s1 s' H) as [I1 I2].
    destruct (step_effect s o s1 E) as (_ & _ & _ & _ & M & _).
    assert (D : (exists o', In o' l /\ asks_silence o') \/ (forall o', In o' l -> ~ asks_silence o')).
    { clear. induction l as [|a l IH]; [right; intros ? []|].
      assert (Da : asks_silence a \/ ~ asks_silence a) by (destruct a as [t|v t|h|v t h]; cbn; try tauto; lia).
      destruct Da as [Da|Da]; [left; exists a; split; [left; reflexivity|exact Da]|].
      destruct IH as [(o' & I & S)|N]; [left; exists o'; split; [right; exact I|exact S]|right]. intros o' [<-|I]; auto. }
    split.
    + intros (o' & [<-|I] & S); [|apply I1; exists o'; auto].
      destruct D as [D|D]; [exact (I1 D)|]. destruct (I2 D) as [-> ->]. destruct M as [(_ & M1 & M2)|(N & _)]; [split; assumption|contradiction].
    + intro N. destruct (I2 (fun o' h => N o' (or_intror h))) as [-> ->]. destruct M as [(S & _)|(_ & M1 & M2)]; [exfalso; exact (N o (or_introl eq_refl) S)|split; assumption].
Qed.
Print Assumptions messages.

(** Refuted: "a verbosity above 0 lets the solver print again". *)
Theorem loud_again_refuted : forall l s s', srun s l = Some s' -> (exists o, In o l /\ asks_silence o) ->
  forall v t s2, srun s' [OSet v t] = Some s2 -> y_log s2 = 0 /\ y_clplog s2 = 0.
Proof.
  intros l s s' H X v t s2 H2. assert (R : srun s (l ++ [OSet v t]) = Some s2) by (apply srun_app; exists s'; auto).
  apply (proj1 (messages _ _ _ R)). destruct X as (o & I & S). exists o. split; [apply in_or_app; left; exact I|exact S].
Qed.
Print Assumptions loud_again_refuted.

(** Special options: after any call preparing for strong branching they are exactly option 4 (16), whatever was set before and whatever is called later;
    without such a call they are untouched. *)
Theorem special_options : forall l s s', srun s l = Some s' ->
  ((exists o, In o l /\ is_strong o) -> forall k, switched_on (y_special s') k <-> k = 4) /\
  ((forall o, In o l -> ~ is_strong o) -> y_special s' = y_special s).
Proof.
  assert (G : forall l s s', srun s l = Some s' -> ((exists o, In o l /\ is_strong o) -> y_special s' = 16) /\ ((forall o, In o l -> ~ is_strong o) -> y_special s' = y_special s)).
  { induction l as [|o l IH]; cbn [srun]; intros s s' H; [injection H as <-; split; [intros (o & [] & _)|reflexivity]|].
    destruct (sstep s o) as [s1|] eqn:E; [|discriminate]. destruct (IH s1 s' H) as [I1 I2].
    destruct (step_effect s o s1 E) as (_ & _ & _ & _ & _ & M1 & M2 & _).
    assert (D : (exists o', In o' l /\ is_strong o') \/ (forall o', In o' l -> ~ is_strong o')).
    { clear. induction l as [|a l IH]; [right; intros ? []|].
      assert (Da : is_strong a \/ ~ is_strong a) by (destruct a as [t|v t|h|v t h]; cbn; tauto).
      destruct Da as [Da|Da]; [left; exists a; split; [left; reflexivity|exact Da]|].
      destruct IH as [(o' & I & S)|N]; [left; exists o'; split; [right; exact I|exact S]|right]. intros o' [<-|I]; auto. }
    split.
    - intros (o' & [<-|I] & S); [|apply I1; exists o'; auto]. destruct D as [D|D]; [exact (I1 D)|]. rewrite (I2 D). exact (M1 S).
    - intro N. rewrite (I2 (fun o' h => N o' (or_intror h))). exact (M2 (N o (or_introl eq_refl))). }
  intros l s s' H. destruct (G l s s' H) as [G1 G2]. split; [|exact G2]. intros X k. unfold switched_on. rewrite (G1 X).
  change 16 with (2 ^ 4). destruct (Z.eq_dec k 4) as [->|N]; [split; reflexivity|]. rewrite Z.pow2_bits_false by lia. split; [discriminate|contradiction].
Qed.
Print Assumptions special_options.

Lemma more_sum l : forall s s', srun s l = Some s' -> y_more s' = y_more s + 256 * Z.of_nat (cbc_calls l).
Proof.
  induction l as [|o l IH]; cbn [srun]; intros s s' H; [injection H as <-; unfold cbc_calls; cbn; lia|].
  destruct (sstep s o) as [s1|] eqn:E; [|discriminate]. rewrite (IH s1 s' H).
  destruct (step_effect s o s1 E) as (_ & _ & _ & _ & _ & _ & _ & M & _). rewrite M. unfold cbc_calls. cbn [filter]. destruct (is_cbc o); cbn [List.length]; lia.
Qed.
Lemma bit8_add (a n : Z) : 0 <= n -> Z.testbit (a + 256 * n) 8 = xorb (Z.testbit a 8) (Z.odd n).
Proof.
  intro Hn. rewrite !Z.testbit_odd, !Z.shiftr_div_pow2 by lia. change (2 ^ 8) with 256.
  rewrite (Z.mul_comm 256 n), Z.div_add by lia. apply Z.odd_add.
Qed.
Lemma low_bits_add (a n k : Z) : 0 <= k < 8 -> Z.testbit (a + 256 * n) k = Z.testbit a k.
Proof.
  intro Hk. rewrite <- (Z.mod_pow2_bits_low (a + 256 * n) 8 k) by lia. rewrite <- (Z.mod_pow2_bits_low a 8 k) by lia.
  change (2 ^ 8) with 256. rewrite (Z.mul_comm 256 n), Z.mod_add by lia. reflexivity.
Qed.
(** The option wanted for branch and bound (option 8 of the second set): each preparation flips it, so it is on after an odd number of preparations of a solver
    that had it off, and off after an even number; the options below it are never touched. *)
Theorem branching_option : forall l s s', srun s l = Some s' ->
  (switched_on (y_more s') 8 <-> (switched_on (y_more s) 8 <-> Nat.Even (cbc_calls l))) /\
  (forall k, 0 <= k < 8 -> (switched_on (y_more s') k <-> switched_on (y_more s) k)).
Proof.
  intros l s s' H. rewrite (more_sum l s s' H). unfold switched_on. split.
  - rewrite bit8_add by lia. set (n := cbc_calls l).
    assert (P : Z.odd (Z.of_nat n) = Nat.odd n).
    { induction n as [|n IH]; [reflexivity|]. rewrite Nat2Z.inj_succ, Z.odd_succ, Nat.odd_succ, <- Z.negb_odd, IH, <- Nat.negb_odd. reflexivity. }
    rewrite P. destruct (Z.testbit (y_more s) 8), (Nat.odd n) eqn:O; cbn [xorb];
      rewrite <- Nat.even_spec, <- Nat.negb_odd, O; cbn [negb]; split; intro X; try reflexivity; try discriminate.
    all: try (split; intro; (reflexivity || discriminate)).
    all: exfalso; destruct X as [X1 X2]; first [specialize (X1 eq_refl); discriminate|specialize (X2 eq_refl); discriminate].
  - intros k Hk. rewrite low_bits_add by exact Hk. reflexivity.
Qed.
Print Assumptions branching_option.

(** The solver the tree is grown with (prepared once from a copy of the user's): the option is on and every other option is as before, provided the user had it off;
    presolve is off, the first set is exactly {4}, limits are the largest numbers. *)
Theorem tree_solver : forall big v s s', prepareTreeSolver big v s = Some s' -> ~ switched_on (y_more s) 8 ->
  switched_on (y_more s') 8 /\ (forall k, k <> 8 -> (switched_on (y_more s') k <-> switched_on (y_more s) k)) /\
  (forall k, switched_on (y_special s') k <-> k = 4) /\
  y_pre_initial s' = false /\ y_pre_resolve s' = false /\ y_time s' = big /\ y_hot s' = 2147483647 /\
  (v = 0 -> y_log s' = 0 /\ y_clplog s' = 0) /\ (v <> 0 -> y_log s' = y_log s /\ y_clplog s' = y_clplog s).
Proof.
  intros big v s s' H N. unfold prepareTreeSolver in H.
  assert (R : srun s [OCbc v big 2147483647] = Some s') by (cbn [srun sstep]; rewrite H; reflexivity).
  destruct (special_options _ _ _ R) as [S _].
  destruct (step_effect s (OCbc v big 2147483647) s' H) as (_ & _ & T & Hh & L & _ & _ & M & _ & P1 & P2).
  cbn [asks_time asks_hot asks_silence is_cbc] in *.
  assert (B : y_more s' = Z.lxor (y_more s) (2 ^ 8)).
  { rewrite M. change 256 with (2 ^ 8). apply Z.add_nocarry_lxor. apply Z.bits_inj'. intros k Hk. rewrite Z.land_spec, Z.bits_0.
    destruct (Z.eq_dec k 8) as [->|Nk]; [|rewrite Z.pow2_bits_false by lia; apply andb_false_r].
    unfold switched_on in N. destruct (Z.testbit (y_more s) 8); [exfalso; apply N; reflexivity|reflexivity]. }
  unfold switched_on in *. split.
  - rewrite B, Z.lxor_spec. destruct (Z.testbit (y_more s) 8); [exfalso; apply N; reflexivity|reflexivity].
  - split.
    + intros k Nk. rewrite B, Z.lxor_spec, Z.pow2_bits_false by lia. rewrite xorb_false_r. reflexivity.
    + split; [apply S; exists (OCbc v big 2147483647); split; [left; reflexivity|exact Logic.I]|].
      split; [exact P1|]. split; [exact P2|]. split; [exact T|]. split; [exact Hh|]. split; intro V; destruct L as [(L0 & L1)|(L0 & L1)]; tauto.
Qed.
Print Assumptions tree_solver.

(** Refuted: "preparing a solver switches the option on": a solver that had it on, in particular one prepared before, has it switched OFF. *)
Theorem prepared_twice_refuted : forall v t h v' t' h' s s', ~ switched_on (y_more s) 8 -> srun s [OCbc v t h; OCbc v' t' h'] = Some s' ->
  ~ switched_on (y_more s') 8.
Proof.
  intros v t h v' t' h' s s' N H. rewrite (proj1 (branching_option _ _ _ H)). intro X. apply N. apply X. exists 1%nat. reflexivity.
Qed.
Print Assumptions prepared_twice_refuted.
(** ... and then an option above it changes as well. *)
Theorem other_option_refuted : exists s s', setupClpForCbc 0 0 0 s = Some s' /\ switched_on (y_more s) 8 /\ ~ switched_on (y_more s') 8 /\ ~ switched_on (y_more s) 9 /\ switched_on (y_more s') 9.
Proof.
  exists {| y_clp := true; y_log := 1; y_clplog := 1; y_time := 0%Q; y_special := 0; y_more := 256; y_hot := 0; y_pre_initial := true; y_pre_resolve := true |}.
  eexists. split; [reflexivity|]. unfold switched_on. repeat split; vm_compute; congruence.
Qed.
Print Assumptions other_option_refuted.

(** No undefined behaviour: exactly for solvers of class OsiClpSolverInterface and as long as the second set of options stays an int. *)
Theorem never_undefined : forall l s, y_more s <= 2147483647 ->
  ((exists s', srun s l = Some s') <->
   (l = [] \/ y_clp s = true) /\ (cbc_calls l = 0%nat \/ y_more s + 256 * Z.of_nat (cbc_calls l) <= 2147483647)).
Proof.
  intros l s B. split.
  - intros (s' & H). split.
    + destruct l as [|o l]; [left; reflexivity|right]. cbn [srun] in H. destruct (sstep s o) as [s1|] eqn:E; [|discriminate]. exact (proj1 (step_effect s o s1 E)).
    + rewrite <- (more_sum l s s' H). right. revert s s' B H. induction l as [|o l IH]; cbn [srun]; intros s s' B H; [injection H as <-; exact B|].
      destruct (sstep s o) as [s1|] eqn:E; [|discriminate]. apply (IH s1 s'); [|exact H].
      destruct (step_effect s o s1 E) as (_ & _ & _ & _ & _ & _ & _ & M & M' & _). destruct (is_cbc o); [apply M'; reflexivity|lia].
  - revert s B. induction l as [|o l IH]; intros s B [C M]; [exists s; reflexivity|].
    destruct C as [C|C]; [discriminate|]. cbn [srun].
    assert (X : exists s1, sstep s o = Some s1).
    { destruct o as [t|v t|h|v t h]; cbn [sstep]; unfold setupClpForCbc, setLPSolverParameters, setupClpForStrongBranching, setTimeLimit; rewrite C; try (eexists; reflexivity).
      - destruct (v =? 0); cbn [y_clp]; rewrite ?C; eexists; reflexivity.
      - assert (L : (2147483647 <? y_more s + 256) = false) by (apply Z.ltb_ge; unfold cbc_calls in M; cbn [filter is_cbc List.length] in M; destruct M as [M|M]; [discriminate|lia]).
        destruct (v =? 0); cbn [y_clp y_more]; rewrite ?C; cbn [y_clp y_more]; rewrite L; eexists; reflexivity. }
    destruct X as (s1 & E). rewrite E. destruct (step_effect s o s1 E) as (_ & C1 & _ & _ & _ & _ & _ & M1 & M2 & _).
    apply IH; [destruct (is_cbc o); [apply M2; reflexivity|lia]|]. split; [right; exact C1|].
    unfold cbc_calls in *. cbn [filter] in M. destruct (is_cbc o); cbn [List.length] in M.
    + destruct M as [M|M]; [discriminate|]. right. lia.
    + destruct M as [M|M]; [left; exact M|right; lia].
Qed.
Print Assumptions never_undefined.

(** Refuted: "a solver of another class gives the message 'Unable to cast'": every call on it is undefined. *)
Theorem other_class_refuted : forall o s, y_clp s = false -> sstep s o = None.
Proof.
  intros o s C. destruct (sstep s o) as [s'|] eqn:E; [|reflexivity]. destruct (step_effect s o s' E) as (C' & _). congruence.
Qed.
Print Assumptions other_class_refuted.

(** ** Loading a file through the library. *)
Lemma read_inv readLp readMps ext filename P : read_instance readLp readMps ext filename = Loaded P ->
  exists status, (if text_eqb ext (txt "lp") then readLp filename else readMps filename) = Some (status, P) /\ 0 <= status.
Proof.
  unfold read_instance. cbv zeta. intro R.
  destruct (text_eqb ext (txt "lp")); [|destruct (text_eqb ext (txt "mps"))];
    (destruct (readLp filename) as [[s1 P1]|] eqn:RL; destruct (readMps filename) as [[s2 P2]|] eqn:RM; try discriminate;
     match type of R with context [?s <? 0] => destruct (Z.ltb_spec s 0); [discriminate|]; injection R as <-; exists s; split; [reflexivity|lia] end).
Qed.
(** When a problem is loaded, a reader read it from that file with a status that is not negative, and the problem held minimises the same problem;
    a negative status of both readers ends the program. *)
Theorem library_load : forall readLp readMps filename,
  (forall P', load_file readLp readMps filename = Loaded P' ->
     exists P status, (readLp filename = Some (status, P) \/ readMps filename = Some (status, P)) /\ 0 <= status /\
       ((os_sense P == 1)%Q \/ (os_sense P == -(1))%Q ->
        (os_sense P' == 1)%Q /\ same_solutions P P' /\ (forall x, obj_value P' x == os_sense P * obj_value P x)%Q /\ (forall x y, better P' x y <-> better P x y))) /\
  (forall s1 s2 P1 P2, readLp filename = Some (s1, P1) -> readMps filename = Some (s2, P2) -> s1 < 0 -> s2 < 0 ->
     load_file readLp readMps filename = LoadExit).
Proof.
  intros readLp readMps filename. unfold load_file. set (ext := match parseFilename filename with Parsed _ _ e => e | ParseErr (Some e) => e | ParseErr None => [] end). split.
  - intros P' H. destruct (read_instance readLp readMps ext filename) as [P| |] eqn:R; try discriminate. injection H as <-.
    destruct (read_inv _ _ _ _ _ R) as (status & X & Hs). exists P, status. split; [destruct (text_eqb ext (txt "lp")); auto|]. split; [exact Hs|].
    intro Se. destruct (flip_equivalent P 1 Se (or_introl eq_refl)) as (F1 & F2 & F3 & F4). change (inject_Z 1) with 1%Q in F1.
    split; [exact F1|]. split; [exact F2|]. split; [|exact F4]. intro x. rewrite <- F3, F1. ring.
  - intros s1 s2 P1 P2 R1 R2 L1 L2. unfold read_instance. rewrite R1, R2. destruct (Z.ltb_spec s1 0), (Z.ltb_spec s2 0); try lia.
    destruct (text_eqb _ _); [reflexivity|]. destruct (text_eqb _ _); reflexivity.
Qed.
Print Assumptions library_load.

(** The file of which a program using the library directly and the command-line program load the same problem. *)
Theorem same_as_command_line : forall fexists readLp readMps filename P',
  (forall r s P, r = readLp \/ r = readMps -> r filename = Some (s, P) -> os_sense P = 1%Q \/ os_sense P = (-(1))%Q) ->
  initializeSolver fexists readLp readMps filename = Loaded P' -> load_file readLp readMps filename = Loaded P'.
Proof.
  intros fexists readLp readMps filename P' Hs H. unfold initializeSolver in H. destruct (_ && _); [discriminate|]. unfold load_file.
  destruct (parseFilename filename) as [|d i ext]; [discriminate|]. destruct (read_instance readLp readMps ext filename) as [P| |] eqn:R; try discriminate.
  injection H as <-. destruct (read_inv _ _ _ _ _ R) as (status & X & _).
  assert (Se : os_sense P = 1%Q \/ os_sense P = (-(1))%Q) 
    by (destruct (text_eqb ext (txt "lp")); [exact (Hs readLp status P (or_introl eq_refl) X)|exact (Hs readMps status P (or_intror eq_refl) X)]).
  assert (G : flipObj 1 P = minimise P); [|exact (f_equal Loaded G)].
  unfold flipObj, minimise. change (inject_Z 1) with 1%Q. destruct Se as [-> | ->].
  - assert (A1 : isVal 1 1 EPS7 = true) by (vm_compute; reflexivity). assert (A2 : Qltb 1 (1 # 1000) = false) by (vm_compute; reflexivity). rewrite A1, A2. reflexivity.
  - assert (A1 : isVal (-(1)) 1 EPS7 = false) by (vm_compute; reflexivity). assert (A2 : Qltb (-(1)) (1 # 1000) = true) by (vm_compute; reflexivity). rewrite A1, A2. reflexivity.
Qed.
Print Assumptions same_as_command_line.

(** Example: the readers give maximise 3x - 2 for "a.lp". *)
Definition exreader : reader := fun f => Some (0, exmax).
Example load_meets : load_file exreader exreader (txt "d/a.lp") = Loaded (minimise exmax) /\ initializeSolver (fun _ => true) exreader exreader (txt "d/a.lp") = Loaded (minimise exmax).
Proof. split; reflexivity. Qed.

(** Refuted: "a file that could not be read in full ends the program": the readers return the number of errors found, which is positive. *)
Theorem errors_accepted_refuted : forall readLp readMps filename n P, 0 < n -> readLp filename = Some (n, P) -> readMps filename = Some (n, P) ->
  load_file readLp readMps filename = Loaded (flipObj 1 P).
Proof.
  intros readLp readMps filename n P Hn R1 R2. unfold load_file, read_instance. rewrite R1, R2. destruct (Z.ltb_spec n 0); [lia|].
  destruct (text_eqb _ _); [reflexivity|]. destruct (text_eqb _ _); reflexivity.
Qed.
Print Assumptions errors_accepted_refuted.
(** Refuted: "a name the command-line program rejects is rejected": a name without extension is read as MPS. *)
Theorem no_extension_refuted : forall fexists readLp readMps filename P, ~ In "."%char filename -> readMps filename = Some (0, P) ->
  initializeSolver fexists readLp readMps filename = LoadExit /\ load_file readLp readMps filename = Loaded (flipObj 1 P).
Proof.
  intros fexists readLp readMps filename P N R. split; [exact (proj1 (proj2 (proj2 (initialize_solver fexists readLp readMps filename))) N)|].
  assert (F : find_last_of is_dot filename = None).
  { clear - N. induction filename as [|c r IH]; [reflexivity|]. cbn [find_last_of]. rewrite IH by (intro X; apply N; right; exact X).
    destruct (is_dot c) eqn:E; [|reflexivity]. apply Ascii.eqb_eq in E. subst c. exfalso. apply N. left. reflexivity. }
  unfold load_file, parseFilename. rewrite F. unfold read_instance. cbn [text_eqb txt]. rewrite R. reflexivity.
Qed.
Print Assumptions no_extension_refuted.

(** Example: a solver is set up, given a limit, prepared for strong branching and for a tree. *)
Definition exset : settings := {| y_clp := true; y_log := 1; y_clplog := 2; y_time := 60%Q; y_special := 3; y_more := 5; y_hot := 100; y_pre_initial := true; y_pre_resolve := true |}.
Example settings_meets : match srun exset [OSet 1 10%Q; OLimit 20%Q; OStrong 7; OCbc 0 30%Q 8; OLimit 40%Q] with
  | Some s' => y_log s' = 0 /\ y_time s' = 40%Q /\ y_special s' = 16 /\ y_more s' = 261 /\ y_hot s' = 8 /\ y_pre_initial s' = false
  | None => False end.
Proof. vm_compute. repeat split. Qed.
Example tree_meets : match prepareTreeSolver 1000%Q 1 exset with Some s' => y_more s' = 261 /\ y_log s' = 1 | None => False end /\ ~ switched_on (y_more exset) 8.
Proof. split; [vm_compute; split; reflexivity|vm_compute; discriminate]. Qed.
