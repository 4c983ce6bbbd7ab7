(** C65: the command line.  However it is written, an option with a value sets its parameter and nothing else; the last one
    counts; unreadable or undeclared values end the program; the 0/1 switches of the strategy do what they say (four do not:
    refuted); help ends the program; operands are ignored.  The optimal value given with -i has precedence over the file. *)
From Coq Require Import String.
From Verif Require Import Prelude Model.TextUtil Model.Parameters Model.CommandLine Spec.TextSpec Spec.ParamSpec Spec.CommandSpec Proofs.TextP Proofs.ParamP Proofs.CommandP.
From Verif Require Properties.C35_NumberParsing Properties.C38_ReadFiles Properties.C41_SetByName Properties.C42_Domains Properties.C43_OptionBits.
#[local] Open Scope Z_scope.

Section Runs.
Context (b : build) (st : text -> strtod_result).
Notation run := (processArgs b st).

(** ** Writing an option. *)
(** All the ways to write an option with a value mean the same, whatever follows. *)
Theorem spelling : forall n c v args, In (n, c) valued -> spelled n c v args -> forall P rest,
  run P (args ++ rest) = run P ((txt "--" ++ txt n ++ "="%char :: v) :: rest).
Proof.
  intros n c v args I S P rest. destruct (valued_table n c I) as (L & z & R & _). unfold processArgs.
  rewrite (getopt_spelled n c v args z I R S rest).
  symmetry. exact (f_equal (process_all b st P 0) (getopt_spelled n c v _ z I R (sp_equals n c v (txt n) (or_introl eq_refl)) rest)).
Qed.

(** Words that do not begin with '-' (and the word '-') are skipped, wherever an option could begin. *)
Definition operand (w : text) : Prop := w = ["-"%char] \/ match w with x :: _ => x <> "-"%char | [] => True end.
Theorem operands_ignored : forall P w rest, operand w -> run P (w :: rest) = run P rest.
Proof.
  intros P w rest H. unfold processArgs. f_equal. destruct H as [->|H]; [reflexivity|]. destruct w as [|x w]; [reflexivity|].
  destruct x as [[] [] [] [] [] [] [] []]; try reflexivity. exfalso. apply H. reflexivity.
Qed.
(** After the word '--' nothing is read. *)
Theorem end_of_options : forall P rest, run P (txt "--" :: rest) = Done (P, 0).
Proof. reflexivity. Qed.

(** ** Plain options. *)
Lemma run_plain P n c t v args : In (n, c, t) plain -> spelled n c v args -> forall rest, run P (args ++ rest) =
  bind (match t with
        | TInt p => if fst (parseInt v) then set_int P p (snd (parseInt v)) else Exit1
        | TDouble p => if fst (parseDouble (st v)) then set_double P p (snd (parseDouble (st v))) else Exit1
        | TString p => set_string P p v
        end) (fun P' => run P' rest).
Proof.
  intros I S rest. assert (J : In (n, c) valued) by (apply in_or_app; left; apply in_map_iff; exists (n, c, t); auto).
  destruct (valued_table n c J) as (_ & z & R & _). unfold processArgs. rewrite (getopt_spelled n c v args z J R S rest).
  assert (A : action_of z = match t with TInt p => AInt p | TDouble p => ADouble p | TString p => AString p end).
  { destruct R as (o & F & _ & <-). clear - I F. repeat (destruct I as [E|I]; [injection E as <- <- <-; vm_compute in F; injection F as <-; reflexivity|]). destruct I. }
  cbn [process_all process]. rewrite A. destruct t.
  - destruct (parseInt v) as [[] z']; cbn [fst snd bind]; [|reflexivity]. destruct (set_int P p z'); reflexivity.
  - destruct (parseDouble (st v)) as [[] z']; cbn [fst snd bind]; [|reflexivity]. destruct (set_double P p z'); reflexivity.
  - destruct (set_string P p v); reflexivity.
Qed.

Lemma parse_readable v z : readable v z -> parseInt v = (true, to_int z).
Proof. intros [N R]. unfold parseInt. rewrite (proj2 (C35_NumberParsing.parse_long v) z N) by (unfold LONG_MIN, LONG_MAX; lia). reflexivity. Qed.
Lemma parse_unreadable v : (forall z, ~ readable v z) -> fst (parseInt v) = false.
Proof.
  intro H. rewrite C35_NumberParsing.parse_int_rejects. destruct (fst (parseLong v)) eqn:E; [|reflexivity].
  apply C35_NumberParsing.parse_long in E. destruct E as (z & N & R). exfalso. apply (H z). split; [exact N|]. unfold LONG_MIN, LONG_MAX in R. lia.
Qed.
Lemma read_or_not v : (exists z, readable v z) \/ forall z, ~ readable v z.
Proof.
  destruct (fst (parseLong v)) eqn:E.
  - left. apply C35_NumberParsing.parse_long in E. destruct E as (z & N & R). exists z. split; [exact N|]. unfold LONG_MIN, LONG_MAX in R. lia.
  - right. intros z [N R]. assert (fst (parseLong v) = true); [|congruence]. apply C35_NumberParsing.parse_long. exists z. split; [exact N|]. unfold LONG_MIN, LONG_MAX. lia.
Qed.
Lemma to_int_id z : is_int z -> to_int z = z.
Proof. unfold is_int, to_int. intro H. rewrite Z.mod_small by lia. lia. Qed.
Lemma to_int_is_int z : is_int (to_int z).
Proof. unfold is_int, to_int. pose proof (Z.mod_pos_bound (z + 2 ^ 31) (2 ^ 32) eq_refl). lia. Qed.

(** An integer option: the value must be a decimal numeral, in the range declared for the parameter; then the parameter has
    that value, no other parameter has changed, and the rest of the line is read.  Otherwise the program exits. *)
Theorem int_option : forall n c p v args, In (n, c, TInt p) plain -> spelled n c v args -> forall P, reach st P ->
  ((forall z, ~ readable v z) -> forall rest, run P (args ++ rest) = Exit1) /\
  (forall z, readable v z -> is_int z ->
     (~ declared_int p z -> forall rest, run P (args ++ rest) = Exit1) /\
     (declared_int p z -> exists P', get_int P' p = Done z /\ same_but_int p P P' /\ reach st P' /\ forall rest, run P (args ++ rest) = run P' rest)).
Proof.
  intros n c p v args I S P R. split.
  - intros H rest. rewrite (run_plain P n c _ v args I S rest), (parse_unreadable v H). reflexivity.
  - intros z H J. pose proof (run_plain P n c _ v args I S) as K. cbn beta iota in K. rewrite (parse_readable v z H), (to_int_id z J) in K. cbn [fst snd] in K.
    destruct (C42_Domains.int_set_iff st P p z R J) as [A B]. split.
    + intros N rest. rewrite K, (B N). reflexivity.
    + intro D. destruct (A D) as [P' E]. exists P'. destruct (proj1 (C41_SetByName.set_then_get P P') p z E) as [G G2]. split; [exact G|]. split; [exact G2|].
      split; [exact (reach_step st P (SetInt p z) P' R J E)|]. intro rest. rewrite K, E. reflexivity.
Qed.

(** Refuted: numerals that do not fit an int are not rejected; the value is taken modulo 2^32. *)
Theorem int_option_wraps_refuted : forall n c p v args z, In (n, c, TInt p) plain -> spelled n c v args -> readable v z ->
  exists w, is_int w /\ w mod 2 ^ 32 = z mod 2 ^ 32 /\
  forall P, reach st P -> declared_int p w -> exists P', get_int P' p = Done w /\ forall rest, run P (args ++ rest) = run P' rest.
Proof.
  intros n c p v args z I S H. exists (to_int z). split; [apply to_int_is_int|]. split.
  { unfold to_int. pose proof (Z.div_mod (z + 2 ^ 31) (2 ^ 32) ltac:(lia)) as D. replace ((z + 2 ^ 31) mod 2 ^ 32 - 2 ^ 31) with (z + (- ((z + 2 ^ 31) / 2 ^ 32)) * 2 ^ 32) by lia. apply Z.mod_add. lia. }
  intros P R D. destruct (proj1 (C42_Domains.int_set_iff st P p _ R (to_int_is_int z)) D) as [P' E]. exists P'.
  split; [apply (proj1 (C41_SetByName.set_then_get P P') p _ E)|]. intro rest. rewrite (run_plain P n c _ v args I S rest), (parse_readable v z H). cbn [fst snd]. rewrite E. reflexivity.
Qed.

Lemma plain_not_inf n c p : In (n, c, TDouble p) plain -> p <> INF.
Proof. intros H ->. repeat (destruct H as [H|H]; [discriminate|]). destruct H. Qed.

(** A double option: likewise, with the number the C library reads (NaN is let through). *)
Theorem double_option : forall n c p v args, In (n, c, TDouble p) plain -> spelled n c v args -> forall P, reach st P ->
  (fst (parseDouble (st v)) = false -> forall rest, run P (args ++ rest) = Exit1) /\
  (fst (parseDouble (st v)) = true -> sd_val (st v) <> DNaN -> ~ declared_double p (sd_val (st v)) -> forall rest, run P (args ++ rest) = Exit1) /\
  (fst (parseDouble (st v)) = true -> sd_val (st v) = DNaN \/ declared_double p (sd_val (st v)) ->
     exists P', get_double P' p = Done (sd_val (st v)) /\ same_but_double p P P' /\ reach st P' /\ forall rest, run P (args ++ rest) = run P' rest).
Proof.
  intros n c p v args I S P R. pose proof (run_plain P n c _ v args I S) as K. cbn beta iota in K. rewrite C35_NumberParsing.parse_double_value in K.
  destruct (C42_Domains.double_set_iff st P p (sd_val (st v)) R (plain_not_inf n c p I)) as [A B]. split; [|split].
  - intros H rest. rewrite K, H. reflexivity.
  - intros H N D rest. rewrite K, H, (B N D). reflexivity.
  - intros H D. destruct (A D) as [P' E]. exists P'. destruct (proj1 (proj2 (C41_SetByName.set_then_get P P')) p _ E) as [G G2]. split; [exact G|]. split; [exact G2|].
    split; [exact (reach_step st P (SetDouble p _) P' R Logic.I E)|]. intro rest. rewrite K, H, E. reflexivity.
Qed.

(** A text option takes any value. *)
Theorem string_option : forall n c p v args, In (n, c, TString p) plain -> spelled n c v args -> forall P, reach st P ->
  exists P', get_string P' p = Done v /\ same_but_string p P P' /\ reach st P' /\ forall rest, run P (args ++ rest) = run P' rest.
Proof.
  intros n c p v args I S P R. destruct (C41_SetByName.set_string_total st P p v R) as [P' E]. exists P'.
  destruct (proj2 (proj2 (C41_SetByName.set_then_get P P')) p v E) as [G G2]. split; [exact G|]. split; [exact G2|].
  split; [exact (reach_step st P (SetString p v) P' R Logic.I E)|]. intro rest. rewrite (run_plain P n c _ v args I S rest), E. reflexivity.
Qed.

(** ** A whole line of settings. *)
Definition tget_same (t : target) (P P' : params) : Prop :=
  match t with TInt p => get_int P' p = get_int P p | TDouble p => get_double P' p = get_double P p | TString p => get_string P' p = get_string P p end.
Definition tgets (t : target) (v : text) (P' : params) : Prop :=
  match t with
  | TInt p => exists z, readable v z /\ (is_int z -> get_int P' p = Done z)
  | TDouble p => get_double P' p = Done (sd_val (st v))
  | TString p => get_string P' p = Done v
  end.
Lemma step_effect args t v rest P P' s : is_setting (args, t, v) -> reach st P -> run P (args ++ rest) = Done (P', s) ->
  exists P1, run P1 rest = Done (P', s) /\ reach st P1 /\ tgets t v P1 /\ forall t', t' <> t -> tget_same t' P P1.
Proof.
  intros (n & c & I & S) R H. destruct t as [p|p|p].
  - destruct (read_or_not v) as [(z & Z)|N]; [|rewrite (proj1 (int_option n c p v args I S P R) N) in H; discriminate].
    rewrite (run_plain P n c _ v args I S rest), (parse_readable v z Z) in H. cbn [fst snd] in H. destruct (set_int P p (to_int z)) as [P1| | |] eqn:E; try discriminate.
    exists P1. cbn [bind] in H. split; [exact H|]. destruct (proj1 (C41_SetByName.set_then_get P P1) p _ E) as [G (G1 & G2 & G3)].
    split; [exact (reach_step st P (SetInt p _) P1 R (to_int_is_int z) E)|]. split; [exists z; split; [exact Z|]; intro J; rewrite G, (to_int_id z J); reflexivity|].
    intros [q|q|q] D; cbn [tget_same]; auto. apply G1. congruence.
  - rewrite (run_plain P n c _ v args I S rest), C35_NumberParsing.parse_double_value in H. destruct (fst (parseDouble (st v))); [|discriminate].
    destruct (set_double P p (sd_val (st v))) as [P1| | |] eqn:E; try discriminate. exists P1. cbn [bind] in H. split; [exact H|].
    destruct (proj1 (proj2 (C41_SetByName.set_then_get P P1)) p _ E) as [G (G1 & G2 & G3)].
    split; [exact (reach_step st P (SetDouble p _) P1 R Logic.I E)|]. split; [exact G|]. intros [q|q|q] D; cbn [tget_same]; auto. apply G2. congruence.
  - destruct (string_option n c p v args I S P R) as (P1 & G & (G1 & G2 & G3) & R1 & K). exists P1. rewrite K in H. split; [exact H|]. split; [exact R1|]. split; [exact G|].
    intros [q|q|q] D; cbn [tget_same]; auto. apply G3. congruence.
Qed.
Lemma target_dec (t t' : target) : {t = t'} + {t <> t'}.
Proof. decide equality; decide equality. Qed.

(** If a line of settings is accepted, each parameter has the last value given for it, or its old value when none was given. *)
Theorem last_wins : forall l P P' s, Forall is_setting l -> reach st P -> run P (words l) = Done (P', s) ->
  s = 0 /\ reach st P' /\
  (forall p, not_given (TInt p) l -> get_int P' p = get_int P p) /\
  (forall p, not_given (TDouble p) l -> get_double P' p = get_double P p) /\
  (forall p, not_given (TString p) l -> get_string P' p = get_string P p) /\
  (forall p v, last_given (TInt p) l v -> exists z, readable v z /\ (is_int z -> get_int P' p = Done z)) /\
  (forall p v, last_given (TDouble p) l v -> get_double P' p = Done (sd_val (st v))) /\
  (forall p v, last_given (TString p) l v -> get_string P' p = Done v).
Proof.
  intros l P P' s F R H.
  assert (G : s = 0 /\ reach st P' /\ (forall t, not_given t l -> tget_same t P P') /\ (forall t v, last_given t l v -> tgets t v P')).
  { revert P R H. induction F as [|[[args t] v] l S F IH]; intros P R H.
    - cbn in H. injection H as <- <-. split; [reflexivity|]. split; [exact R|]. split; [intros [p|p|p] _; reflexivity|]. intros t v (l1 & a & l2 & E & _). destruct l1; discriminate.
    - cbn [words flat_map] in H. destruct (step_effect args t v (words l) P P' s S R H) as (P1 & H1 & R1 & G & K). destruct (IH P1 R1 H1) as (A & B & C & D).
      split; [exact A|]. split; [exact B|]. split.
      + intros t' N. assert (N1 : t' <> t) by (intros ->; exact (N (args, t, v) (or_introl eq_refl) eq_refl)). assert (N2 : not_given t' l) by (intros q Hq; apply N; right; exact Hq).
        specialize (C t' N2). specialize (K t' N1). destruct t'; cbn [tget_same] in *; congruence.
      + intros t' v' (l1 & a & l2 & E & N). destruct l1 as [|x l1]; cbn [app] in E.
        * injection E as -> -> -> ->. specialize (C t' N). destruct t' as [p|p|p]; cbn [tget_same tgets] in *.
          -- destruct G as (z & Z & G). exists z. split; [exact Z|]. intro J. rewrite C. auto.
          -- congruence.
          -- congruence.
        * injection E as _ ->. apply (D t' v'). exists l1, a, l2. auto. }
  destruct G as (A & B & C & D). split; [exact A|]. split; [exact B|]. split; [exact (fun p => C (TInt p))|]. split; [exact (fun p => C (TDouble p))|]. split; [exact (fun p => C (TString p))|].
  split; [exact (fun p => D (TInt p))|]. split; [exact (fun p => D (TDouble p))|exact (fun p => D (TString p))].
Qed.

(** A line whose values are all acceptable is accepted. *)
Theorem all_accepted : forall l P, Forall is_setting l -> Forall (fun '(_, t, v) => acceptable st t v) l -> reach st P -> exists P', run P (words l) = Done (P', 0).
Proof.
  intros l P F A R. revert P R. induction F as [|[[args t] v] l (n & c & I & S) F IH]; intros P R; [exists P; reflexivity|].
  apply Forall_cons_iff in A. destruct A as [A1 A2]. specialize (IH A2). cbn [words flat_map].
  assert (K : exists P1, reach st P1 /\ forall rest, run P (args ++ rest) = run P1 rest).
  { destruct t as [p|p|p]; cbn [acceptable] in A1.
    - destruct A1 as (z & Z & J & D). destruct (proj2 (proj2 (int_option n c p v args I S P R) z Z J) D) as (P1 & _ & _ & R1 & K). eauto.
    - destruct A1 as [E D]. destruct (proj2 (proj2 (double_option n c p v args I S P R)) E D) as (P1 & _ & _ & R1 & K). eauto.
    - destruct (string_option n c p v args I S P R) as (P1 & _ & _ & R1 & K). eauto. }
  destruct K as (P1 & R1 & K). rewrite K. apply IH, R1.
Qed.

(** A line with a value that is not acceptable ends the program with exit code 1, whatever precedes (settings) and follows. *)
Definition unacceptable (t : target) (v : text) : Prop :=
  match t with
  | TInt p => (forall z, ~ readable v z) \/ exists z, readable v z /\ is_int z /\ ~ declared_int p z
  | TDouble p => fst (parseDouble (st v)) = false \/ (sd_val (st v) <> DNaN /\ ~ declared_double p (sd_val (st v)))
  | TString _ => False
  end.
Theorem any_rejected : forall l args t v rest P, Forall is_setting l -> is_setting (args, t, v) -> unacceptable t v -> reach st P ->
  run P (words l ++ args ++ rest) = Exit1.
Proof.
  intros l args t v rest P F S U R. revert P R. induction F as [|[[args1 t1] v1] l (n & c & I & S1) F IH]; intros P R.
  - cbn [words flat_map app]. destruct S as (n & c & I & S). destruct t as [p|p|p]; cbn [unacceptable] in U.
    + destruct U as [U|(z & Z & J & D)]; [apply (proj1 (int_option n c p v args I S P R) U)|apply (proj1 (proj2 (int_option n c p v args I S P R) z Z J) D)].
    + destruct (fst (parseDouble (st v))) eqn:E; [|apply (proj1 (double_option n c p v args I S P R) E)]. destruct U as [U|[N D]]; [congruence|].
      apply (proj1 (proj2 (double_option n c p v args I S P R)) E N D).
    + destruct U.
  - cbn [words flat_map]. rewrite <- app_assoc. fold (words l). rewrite (run_plain P n c t1 v1 args1 I S1). destruct t1 as [p|p|p].
    + destruct (parseInt v1) as [[] w] eqn:E; [|reflexivity]. cbn [fst snd].
      assert (J : is_int w). { unfold parseInt in E. destruct (parseLong v1). injection E as _ <-. apply to_int_is_int. }
      destruct (set_int_outcome P p w (reach_wf st P R) J) as [(P1 & E1 & _)|[E1 _]]; rewrite E1; [|reflexivity]. cbn [bind]. apply IH. exact (reach_step st P (SetInt p w) P1 R J E1).
    + destruct (fst (parseDouble (st v1))); [|reflexivity]. destruct (set_double P p (snd (parseDouble (st v1)))) as [P1| | |] eqn:E1; try (unfold set_double in E1; destruct (lookup double_eqb (doubles P) p) eqn:L; [destruct (d_set _ _); discriminate|]).
      * cbn [bind]. apply IH. exact (reach_step st P (SetDouble p _) P1 R Logic.I E1).
      * reflexivity.
      * discriminate.
      * destruct (wf_double P p (reach_wf st P R)) as (q & E & _). congruence.
    + destruct (C41_SetByName.set_string_total st P p v1 R) as [P1 E1]. rewrite E1. cbn [bind]. apply IH. exact (reach_step st P (SetString p v1) P1 R Logic.I E1).
Qed.

(** ** The branch-and-bound strategy. *)
Lemma bb_en s a o : is_int s -> (use_bb_option (enable_bb_option s a) o = true <-> use_bb_option s o = true \/ (o = a /\ a <> off)) /\ is_int (enable_bb_option s a).
Proof. intro H. destruct (C43_OptionBits.bb_options s a o H) as (A & _ & _ & B & _). auto. Qed.
Lemma bb_di s a o : is_int s -> (use_bb_option (disable_bb_option s a) o = true <-> use_bb_option s o = true /\ o <> a) /\ is_int (disable_bb_option s a).
Proof. intro H. destruct (C43_OptionBits.bb_options s a o H) as (_ & A & _ & _ & B). auto. Qed.
Lemma bb_ien s a : is_int s -> is_int (enable_bb_option s a). Proof. intro H. apply (bb_en s a off H). Qed.
Lemma bb_idi s a : is_int s -> is_int (disable_bb_option s a). Proof. intro H. apply (bb_di s a off H). Qed.

Ltac switches := let o := fresh "o" in unfold switched; intro o; unfold only, without, with_, flip, id_bb;
  repeat first [rewrite (fun s a H => proj1 (bb_di s a o H)) by auto using bb_ien, bb_idi | rewrite (fun s a H => proj1 (bb_en s a o H)) by auto using bb_ien, bb_idi];
  cbn [In]; destruct o; intuition (congruence || discriminate).

Lemma run_flag P n v args zero one after z : In (n, None) others -> returns n z -> action_of z = AFlag zero one after -> spelled n None v args -> forall rest, run P (args ++ rest) =
  if negb (fst (parseInt v)) || (negb (snd (parseInt v) =? 0) && negb (snd (parseInt v) =? 1)) then Exit1
  else bind (get_int P BB_STRATEGY) (fun s => bind (set_int P BB_STRATEGY (after (if snd (parseInt v) =? 0 then zero s else one s))) (fun P' => run P' rest)).
Proof.
  intros I R A S rest. unfold processArgs at 1. rewrite (getopt_spelled n None v args z (in_or_app _ _ _ (or_intror I)) R S rest). cbn [process_all process]. rewrite A.
  destruct (parseInt v) as [rc w]. cbn [fst snd]. destruct (negb rc || _); [reflexivity|]. destruct (get_int P BB_STRATEGY); try reflexivity. cbn [bind].
  destruct (set_int P BB_STRATEGY _); reflexivity.
Qed.
Lemma flag_effect P n v args zero one after z s w : In (n, None) others -> returns n z -> action_of z = AFlag zero one after -> spelled n None v args ->
  reach st P -> get_int P BB_STRATEGY = Done s -> readable v w -> w = 0 \/ w = 1 ->
  (is_int s -> is_int (after (if w =? 0 then zero s else one s))) ->
  exists P', get_int P' BB_STRATEGY = Done (after (if w =? 0 then zero s else one s)) /\ same_but_int BB_STRATEGY P P' /\ reach st P' /\ forall rest, run P (args ++ rest) = run P' rest.
Proof.
  intros I R A S RP G V W K. assert (J : is_int s) by (apply (C42_Domains.int_domain st P BB_STRATEGY s RP G)). specialize (K J).
  destruct (proj1 (C42_Domains.int_set_iff st P BB_STRATEGY _ RP K) Logic.I) as [P' E]. exists P'.
  destruct (proj1 (C41_SetByName.set_then_get P P') BB_STRATEGY _ E) as [G1 G2]. split; [exact G1|]. split; [exact G2|]. split; [exact (reach_step st P (SetInt BB_STRATEGY _) P' RP K E)|].
  intro rest. rewrite (run_flag P n v args zero one after z I R A S rest), (parse_readable v w V), (to_int_id w) by (destruct W as [-> | ->]; unfold is_int; lia). cbn [fst snd].
  rewrite G. cbn [bind]. rewrite E. destruct W as [-> | ->]; reflexivity.
Qed.
Lemma flag_rejects P n v args zero one after z : In (n, None) others -> returns n z -> action_of z = AFlag zero one after -> spelled n None v args ->
  (forall w, readable v w -> is_int w -> w <> 0 /\ w <> 1) -> (forall w, readable v w -> is_int w) -> forall rest, run P (args ++ rest) = Exit1.
Proof.
  intros I R A S N J rest. rewrite (run_flag P n v args zero one after z I R A S rest). destruct (read_or_not v) as [(w & W)|U].
  - rewrite (parse_readable v w W), (to_int_id w (J w W)). cbn [fst snd negb orb]. destruct (N w W (J w W)) as [N0 N1]. apply Z.eqb_neq in N0, N1. rewrite N0, N1. reflexivity.
  - rewrite (parse_unreadable v U). reflexivity.
Qed.

Lemma toggle_table tg : In tg toggles -> In (tg_name tg, None) others /\ exists z zero one, returns (tg_name tg) z /\ action_of z = AFlag zero one id_bb /\
  forall s, is_int s -> switched (tg_on0 tg) (tg_off0 tg) s (zero s) /\ is_int (zero s) /\ switched (tg_on1 tg) (tg_off1 tg) s (one s) /\ is_int (one s).
Proof.
  intro H. repeat (destruct H as [<-|H]; [cbn [tg_name tg_on0 tg_on1 tg_off0 tg_off1]; split; [vm_compute; tauto|];
    eexists; eexists; eexists; (split; [eexists; split; [vm_compute; reflexivity|split; [reflexivity|reflexivity]]|]); (split; [reflexivity|]);
    intros s Hs; (split; [switches|]); (split; [unfold only, without, with_, flip; auto using bb_ien, bb_idi|]); (split; [switches|unfold only, without, with_, flip; auto using bb_ien, bb_idi])|]).
  destruct H.
Qed.

(** The switches cbc, cplex, gurobi, user_cuts, bb_all_cuts, bb_gmics, bb_strong_branching: 1 and 0 add and remove exactly the
    options they should; anything else (up to 2^32, see above) is refused. *)
Theorem toggle_option : forall tg v args P s, In tg toggles -> spelled (tg_name tg) None v args -> reach st P -> get_int P BB_STRATEGY = Done s ->
  ((forall z, readable v z -> is_int z /\ z <> 0 /\ z <> 1) -> forall rest, run P (args ++ rest) = Exit1) /\
  (readable v 1 -> exists P' s', get_int P' BB_STRATEGY = Done s' /\ switched (tg_on1 tg) (tg_off1 tg) s s' /\ same_but_int BB_STRATEGY P P' /\ reach st P' /\ forall rest, run P (args ++ rest) = run P' rest) /\
  (readable v 0 -> exists P' s', get_int P' BB_STRATEGY = Done s' /\ switched (tg_on0 tg) (tg_off0 tg) s s' /\ same_but_int BB_STRATEGY P P' /\ reach st P' /\ forall rest, run P (args ++ rest) = run P' rest).
Proof.
  intros tg v args P s T S R G. destruct (toggle_table tg T) as (I & z & zero & one & Z & A & E). destruct (E s (proj2 (C42_Domains.int_domain st P BB_STRATEGY s R G))) as (E0 & I0 & E1 & I1).
  split; [|split].
  - intros N. apply (flag_rejects P _ v args zero one id_bb z I Z A S); intros w W; [intro|]; apply (N w W).
  - intro V. destruct (flag_effect P _ v args zero one id_bb z s 1 I Z A S R G V (or_intror eq_refl) (fun _ => I1)) as (P' & A1 & A2 & A3 & A4). exists P', (one s). auto.
  - intro V. destruct (flag_effect P _ v args zero one id_bb z s 0 I Z A S R G V (or_introl eq_refl) (fun _ => I0)) as (P' & A1 & A2 & A3 & A4). exists P', (zero s). auto.
Qed.

(** Refuted: --use_best_bound=0 turns the option on. *)
Theorem best_bound_off_refuted : forall v args P s, spelled "use_best_bound"%string None v args -> reach st P -> get_int P BB_STRATEGY = Done s -> readable v 0 ->
  exists P' s', get_int P' BB_STRATEGY = Done s' /\ use_bb_option s' use_best_bound = true /\ forall rest, run P (args ++ rest) = run P' rest.
Proof.
  intros v args P s S R G V.
  destruct (flag_effect P "use_best_bound"%string v args (without use_best_bound) (with_ use_best_bound) (with_ use_best_bound) (66 * 51) s 0) as (P' & A1 & _ & _ & A4); auto.
  - vm_compute. tauto.
  - eexists. split; [vm_compute; reflexivity|split; reflexivity].
  - intro J. cbn [Z.eqb]. unfold without, with_. auto using bb_ien, bb_idi.
  - exists P'. eexists. split; [exact A1|]. split; [|exact A4]. cbn [Z.eqb]. unfold with_, without. assert (J := proj2 (C42_Domains.int_domain st P BB_STRATEGY s R G)).
    apply bb_en; [auto using bb_idi|]. right. split; [reflexivity|discriminate].
Qed.

(** Refuted: --bb_heuristics switches presolve, and --bb_presolve switches heuristics. *)
Theorem heuristics_presolve_refuted : forall P s, reach st P -> get_int P BB_STRATEGY = Done s ->
  (forall v args, spelled "bb_heuristics"%string None v args -> readable v 1 -> exists P' s', get_int P' BB_STRATEGY = Done s' /\ switched [presolve_on] [presolve_off] s s' /\ forall rest, run P (args ++ rest) = run P' rest) /\
  (forall v args, spelled "bb_heuristics"%string None v args -> readable v 0 -> exists P' s', get_int P' BB_STRATEGY = Done s' /\ switched [presolve_off] [presolve_on] s s' /\ forall rest, run P (args ++ rest) = run P' rest) /\
  (forall v args, spelled "bb_presolve"%string None v args -> readable v 1 -> exists P' s', get_int P' BB_STRATEGY = Done s' /\ switched [heuristics_on] [heuristics_off] s s' /\ forall rest, run P (args ++ rest) = run P' rest) /\
  (forall v args, spelled "bb_presolve"%string None v args -> readable v 0 -> exists P' s', get_int P' BB_STRATEGY = Done s' /\ switched [heuristics_off] [heuristics_on] s s' /\ forall rest, run P (args ++ rest) = run P' rest).
Proof.
  intros P s R G. assert (J := proj2 (C42_Domains.int_domain st P BB_STRATEGY s R G)).
  assert (H : forall n c a b' v args w, In (n, None) others -> returns n c -> action_of c = AFlag (flip b' a) (flip a b') id_bb -> spelled n None v args -> readable v w -> w = 0 \/ w = 1 ->
    exists P', get_int P' BB_STRATEGY = Done (if w =? 0 then flip b' a s else flip a b' s) /\ forall rest, run P (args ++ rest) = run P' rest).
  { intros n c a b' v args w I C A S V W. destruct (flag_effect P n v args _ _ _ c s w I C A S R G V W) as (P' & A1 & _ & _ & A4); [|exists P'; auto].
    intros _. unfold id_bb, flip. destruct (w =? 0); auto using bb_ien, bb_idi. }
  split; [|split; [|split]]; intros v args S V.
  - destruct (H "bb_heuristics"%string (66 * 54) presolve_on presolve_off v args 1) as (P' & E & K); auto; [vm_compute; tauto|eexists; split; [vm_compute; reflexivity|split; reflexivity]|]. exists P'. eexists. split; [exact E|]. split; [cbn [Z.eqb]; switches|exact K].
  - destruct (H "bb_heuristics"%string (66 * 54) presolve_on presolve_off v args 0) as (P' & E & K); auto; [vm_compute; tauto|eexists; split; [vm_compute; reflexivity|split; reflexivity]|]. exists P'. eexists. split; [exact E|]. split; [cbn [Z.eqb]; switches|exact K].
  - destruct (H "bb_presolve"%string (66 * 55) heuristics_on heuristics_off v args 1) as (P' & E & K); auto; [vm_compute; tauto|eexists; split; [vm_compute; reflexivity|split; reflexivity]|]. exists P'. eexists. split; [exact E|]. split; [cbn [Z.eqb]; switches|exact K].
  - destruct (H "bb_presolve"%string (66 * 55) heuristics_on heuristics_off v args 0) as (P' & E & K); auto; [vm_compute; tauto|eexists; split; [vm_compute; reflexivity|split; reflexivity]|]. exists P'. eexists. split; [exact E|]. split; [cbn [Z.eqb]; switches|exact K].
Qed.

Lemma run_other P n c v args : In (n, c) others -> spelled n c v args -> exists z, returns n z /\ forall rest, run P (args ++ rest) = bind (process b st P 0 (z, v)) (fun '(P', s') => process_all b st P' s' (getopt_long rest)).
Proof.
  intros I S. assert (J : In (n, c) valued) by (apply in_or_app; right; exact I). destruct (valued_table n c J) as (_ & z & R & _). exists z. split; [exact R|].
  intro rest. unfold processArgs. rewrite (getopt_spelled n c v args z J R S rest). reflexivity.
Qed.
Lemma returns_of n o : find_long (txt n) = Some o -> forall z, returns n z -> z = lo_val o.
Proof. intros F z (o' & F' & _ & <-). congruence. Qed.

(** -B / --bb_strategy: the value is stored, unless it asks for Gurobi or CPLEX and the program was built without. *)
Theorem strategy_option : forall v args P, spelled "bb_strategy"%string (Some "B"%char) v args -> reach st P ->
  ((forall z, ~ readable v z) -> forall rest, run P (args ++ rest) = Exit1) /\
  (forall z, readable v z -> is_int z ->
    ((use_bb_option z gurobi = true /\ b_gurobi b = false) \/ (use_bb_option z cplex = true /\ b_cplex b = false) -> forall rest, run P (args ++ rest) = Exit1) /\
    ((use_bb_option z gurobi = true -> b_gurobi b = true) -> (use_bb_option z cplex = true -> b_cplex b = true) ->
       exists P', get_int P' BB_STRATEGY = Done z /\ same_but_int BB_STRATEGY P P' /\ reach st P' /\ forall rest, run P (args ++ rest) = run P' rest)).
Proof.
  intros v args P S R. destruct (run_other P "bb_strategy" (Some "B"%char) v args) as (c & C & K); [vm_compute; tauto|exact S|].
  apply (returns_of "bb_strategy" (req "bb_strategy" (ch "B"))) in C; [|vm_compute; reflexivity]. subst c. cbn [process] in K.
  assert (A : action_of (lo_val (req "bb_strategy" (ch "B"))) = AStrategy) by reflexivity. rewrite A in K. split.
  - intros N rest. specialize (K rest). pose proof (parse_unreadable v N) as E. destruct (parseInt v) as [rc w]. cbn [fst] in E. subst rc. exact K.
  - intros z Z J. rewrite (parse_readable v z Z), (to_int_id z J) in K. destruct (proj1 (C42_Domains.int_set_iff st P BB_STRATEGY z R J) Logic.I) as [P' E]. rewrite E in K. cbn [bind] in K. split.
    + intros N rest. rewrite K. destruct N as [[U B]|[U B]]; rewrite U, B; cbn [negb andb bind]; [reflexivity|]. destruct (use_bb_option z gurobi && _); reflexivity.
    + intros G C. exists P'. destruct (proj1 (C41_SetByName.set_then_get P P') BB_STRATEGY z E) as [G1 G2]. split; [exact G1|]. split; [exact G2|]. split; [exact (reach_step st P (SetInt BB_STRATEGY z) P' R J E)|].
      intro rest. rewrite K. destruct (use_bb_option z gurobi); [rewrite (G eq_refl)|]; cbn [negb andb]; destruct (use_bb_option z cplex); try rewrite (C eq_refl); cbn [negb andb bind]; reflexivity.
Qed.
(** Refuted: the strategy never asks for a solver the program was built without.  The default asks for Gurobi, and --gurobi=1
    and --cplex=1 are not checked. *)
Theorem unbuilt_solver_refuted : b_gurobi b = false -> b_cplex b = false ->
  (exists s, run new_params [] = Done (new_params, 0) /\ get_int new_params BB_STRATEGY = Done s /\ use_bb_option s gurobi = true) /\
  forall P, reach st P -> (exists P' s, run P [txt "--gurobi=1"] = Done (P', 0) /\ get_int P' BB_STRATEGY = Done s /\ use_bb_option s gurobi = true) /\
                          (exists P' s, run P [txt "--cplex=1"] = Done (P', 0) /\ get_int P' BB_STRATEGY = Done s /\ use_bb_option s cplex = true).
Proof.
  intros _ _. split.
  - exists 536. split; [reflexivity|]. split; vm_compute; reflexivity.
  - intros P R. destruct (C41_SetByName.parameters_present st P R) as (PI & _). destruct (PI BB_STRATEGY) as [s G].
    assert (V : readable (txt "1") 1). { split; [|lia]. exists [], [], (txt "1"). split; [reflexivity|]. split; [constructor|]. split; [constructor; [vm_compute; lia|constructor]|]. split; [discriminate|]. left. split; [left; reflexivity|reflexivity]. }
    assert (S1 : forall n, In (n, None) others -> spelled n None (txt "1") [(txt "--" ++ txt n ++ "="%char :: txt "1")%list]) by (intros; apply sp_equals; left; reflexivity).
    split.
    + destruct (proj1 (proj2 (toggle_option {| tg_name := "gurobi"; tg_on1 := [gurobi]; tg_off1 := [cbc; cplex]; tg_on0 := []; tg_off0 := [gurobi] |} (txt "1") _ P s ltac:(vm_compute; tauto) (S1 "gurobi"%string ltac:(vm_compute; tauto)) R G)) V) as (P' & s' & A & B & _ & _ & K).
      exists P', s'. split; [exact (K [])|]. split; [exact A|]. apply B. left. left. reflexivity.
    + destruct (proj1 (proj2 (toggle_option {| tg_name := "cplex"; tg_on1 := [cplex]; tg_off1 := [cbc; gurobi]; tg_on0 := []; tg_off0 := [cplex] |} (txt "1") _ P s ltac:(vm_compute; tauto) (S1 "cplex"%string ltac:(vm_compute; tauto)) R G)) V) as (P' & s' & A & B & _ & _ & K).
      exists P', s'. split; [exact (K [])|]. split; [exact A|]. apply B. left. left. reflexivity.
Qed.

(** ** --preprocess: also sets one branch-and-bound run, mode 1, time limit 7200 and the strategy, whatever its value (0 too). *)
Theorem preprocess_option : forall v args z P, spelled "preprocess"%string None v args -> readable v z -> is_int z -> reach st P ->
  (~ (0 <= z <= 2) -> forall rest, run P (args ++ rest) = Exit1) /\
  (0 <= z <= 2 -> exists P' s, reach st P' /\ (forall rest, run P (args ++ rest) = run P' rest) /\
     get_int P' PREPROCESS = Done z /\ get_int P' BB_RUNS = Done 1 /\ get_int P' BB_MODE = Done 1 /\ get_double P' TIMELIMIT = Done (DFin 7200) /\ get_int P' BB_STRATEGY = Done s /\
     (forall o, use_bb_option s o = true <-> o = user_cuts \/ o = presolve_off \/ (o = gurobi /\ b_gurobi b = true) \/ (o = cplex /\ b_gurobi b = false /\ b_cplex b = true) \/ (o = cbc /\ b_gurobi b = false /\ b_cplex b = false /\ b_cbc b = true)) /\
     (forall p, ~ In p [PREPROCESS; BB_RUNS; BB_MODE; BB_STRATEGY] -> get_int P' p = get_int P p) /\ (forall p, p <> TIMELIMIT -> get_double P' p = get_double P p) /\ (forall p, get_string P' p = get_string P p)).
Proof.
  intros v args z P S Z J R. destruct (run_other P "preprocess" None v args) as (c & C & K); [vm_compute; tauto|exact S|].
  apply (returns_of "preprocess" (req "preprocess" (ch "p" * ch "1"))) in C; [|vm_compute; reflexivity]. subst c. cbn [process] in K.
  assert (A : action_of (lo_val (req "preprocess" (ch "p" * ch "1"))) = APreprocess) by reflexivity. rewrite A, (parse_readable v z Z), (to_int_id z J) in K.
  split.
  - intros N rest. rewrite K, (proj2 (C42_Domains.int_set_iff st P PREPROCESS z R J) N). reflexivity.
  - intro D. assert (I1 : is_int 1) by (unfold is_int; lia). assert (I2 : is_int (preprocess_strategy b)) by (destruct b as [[] [] []]; vm_compute; split; discriminate).
    destruct (proj1 (C42_Domains.int_set_iff st P PREPROCESS z R J) D) as [P1 E1]. assert (R1 := reach_step st P (SetInt PREPROCESS z) P1 R J E1).
    destruct (proj1 (C42_Domains.int_set_iff st P1 BB_RUNS 1 R1 I1) Logic.I) as [P2 E2]. assert (R2 := reach_step st P1 (SetInt BB_RUNS 1) P2 R1 I1 E2).
    destruct (proj1 (C42_Domains.int_set_iff st P2 BB_MODE 1 R2 I1)) as [P3 E3]; [cbn [declared_int]; lia|]. assert (R3 := reach_step st P2 (SetInt BB_MODE 1) P3 R2 I1 E3).
    destruct (proj1 (C42_Domains.int_set_iff st P3 BB_STRATEGY _ R3 I2) Logic.I) as [P4 E4]. assert (R4 := reach_step st P3 (SetInt BB_STRATEGY _) P4 R3 I2 E4).
    destruct (proj1 (C42_Domains.double_set_iff st P4 TIMELIMIT (DFin 7200) R4 ltac:(discriminate))) as [P5 E5]; [right; cbn [declared_double]; lra|]. assert (R5 := reach_step st P4 (SetDouble TIMELIMIT _) P5 R4 Logic.I E5).
    rewrite E1 in K. cbn [bind] in K. rewrite E2 in K. cbn [bind] in K. rewrite E3 in K. cbn [bind] in K. rewrite E4 in K. cbn [bind] in K. rewrite E5 in K. cbn [bind] in K.
    destruct (proj1 (C41_SetByName.set_then_get P P1) _ _ E1) as [V1 (A1 & B1 & C1)]. destruct (proj1 (C41_SetByName.set_then_get P1 P2) _ _ E2) as [V2 (A2 & B2 & C2)].
    destruct (proj1 (C41_SetByName.set_then_get P2 P3) _ _ E3) as [V3 (A3 & B3 & C3)]. destruct (proj1 (C41_SetByName.set_then_get P3 P4) _ _ E4) as [V4 (A4 & B4 & C4)].
    destruct (proj1 (proj2 (C41_SetByName.set_then_get P4 P5)) _ _ E5) as [V5 (A5 & B5 & C5)].
    exists P5, (preprocess_strategy b). split; [exact R5|]. split; [exact K|].
    split; [rewrite A5, A4, A3, A2 by discriminate; exact V1|]. split; [rewrite A5, A4, A3 by discriminate; exact V2|]. split; [rewrite A5, A4 by discriminate; exact V3|]. split; [exact V5|]. split; [rewrite A5; exact V4|].
    split; [|split; [|split]].
    + intro o. clear. destruct b as [[] [] []]; destruct o; vm_compute; intuition (congruence || discriminate).
    + intros p N. cbn [In] in N. rewrite A5, A4, A3, A2, A1; tauto || (intros ->; tauto).
    + intros p N. rewrite B5, B4, B3, B2, B1 by exact N. reflexivity.
    + intro p. rewrite C5, C4, C3, C2, C1. reflexivity.
Qed.

(** ** --temp and --tikz. *)
Definition tikz_part (o : tempOption) : Prop := In o [GEN_TIKZ_STRING_WITH_VPCS; GEN_TIKZ_STRING_WITH_GMICS; GEN_TIKZ_STRING_AND_RETURN; GEN_TIKZ_STRING_AND_EXIT].
(** A non-negative --temp is stored, with GEN_TIKZ_STRING added when one of the options that need it is there. *)
Theorem temp_option : forall v args z P, spelled "temp"%string None v args -> readable v z -> is_int z -> 0 <= z -> reach st P ->
  exists P' s, get_int P' TEMP = Done s /\ same_but_int TEMP P P' /\ reach st P' /\ (forall rest, run P (args ++ rest) = run P' rest) /\
  forall o, use_temp_option s o = true <-> use_temp_option z o = true \/ (o = GEN_TIKZ_STRING /\ exists o', tikz_part o' /\ use_temp_option z o' = true).
Proof.
  intros v args z P S Z J N R. destruct (run_other P "temp" None v args) as (c & C & K); [vm_compute; tauto|exact S|].
  apply (returns_of "temp" (req "temp" (ch "t" * ch "1"))) in C; [|vm_compute; reflexivity]. subst c. cbn [process] in K.
  assert (A : action_of (lo_val (req "temp" (ch "t" * ch "1"))) = ATemp) by reflexivity. rewrite A, (parse_readable v z Z), (to_int_id z J) in K.
  destruct (Z.eqb_spec z INT_MIN) as [E|_]; [unfold INT_MIN in E; lia|].
  set (s := if temp_implies z then enable_temp_option z GEN_TIKZ_STRING else z) in *.
  assert (Js : is_int s) by (unfold s; destruct (temp_implies z); [apply (C43_OptionBits.temp_options z GEN_TIKZ_STRING NONE J)|exact J]).
  destruct (proj1 (C42_Domains.int_set_iff st P TEMP s R Js) Logic.I) as [P' E]. rewrite E in K. destruct (proj1 (C41_SetByName.set_then_get P P') _ _ E) as [V1 A1].
  exists P', s. split; [exact V1|]. split; [exact A1|]. split; [exact (reach_step st P (SetInt TEMP s) P' R Js E)|]. split; [exact K|].
  intro o. unfold s. clear - J N.
  assert (T : temp_implies z = true <-> exists o', tikz_part o' /\ use_temp_option z o' = true).
  { unfold temp_implies. rewrite Z.abs_eq by exact N. rewrite !orb_true_iff. unfold tikz_part. cbn [In]. split.
    - intros [[[H|H]|H]|H]; eexists; (split; [|exact H]); auto.
    - intros (o' & [<-|[<-|[<-|[<-|[]]]]] & H); auto. }
  destruct (temp_implies z).
  - rewrite (proj1 (C43_OptionBits.temp_options z GEN_TIKZ_STRING o J)). split; intros [H|H]; auto.
    + right. split; [apply H|apply T; reflexivity].
    + right. split; [apply H|discriminate].
  - split; [auto|]. intros [H|[_ H]]; [exact H|]. apply T in H. discriminate.
Qed.
(** Refuted for negative values, which the program elsewhere reads through their absolute value: --temp=-2048 asks for the tree
    with the cuts, and what is stored no longer does; and the absolute value of the smallest int is undefined. *)
Theorem temp_negative_refuted : forall P, reach st P ->
  use_temp_option (Z.abs (-2048)) GEN_TIKZ_STRING_WITH_VPCS = true /\
  (exists P' s, run P [txt "--temp=-2048"] = Done (P', 0) /\ get_int P' TEMP = Done s /\ use_temp_option (Z.abs s) GEN_TIKZ_STRING_WITH_VPCS = false) /\
  run P [txt "--temp=-2147483648"] = Undef.
Proof.
  intros P R. split; [vm_compute; reflexivity|].
  assert (K : forall w, run P [(txt "--temp=" ++ w)%list] = bind (process b st P 0 (ch "t" * ch "1", w)) (fun '(P', s') => Done (P', s'))).
  { intro w. unfold processArgs. change (getopt_long [(txt "--temp=" ++ w)%list]) with [(ch "t" * ch "1", w)]. reflexivity. }
  assert (A : forall w, process b st P 0 (ch "t" * ch "1", w) = (let '(rc, v) := parseInt w in if rc then if v =? INT_MIN then Undef else bind (set_int P TEMP (if temp_implies v then enable_temp_option v GEN_TIKZ_STRING else v)) (fun P' => Done (P', 0)) else Exit1)) by reflexivity.
  split.
  - destruct (proj1 (C42_Domains.int_set_iff st P TEMP (-1024) R ltac:(unfold is_int; lia)) Logic.I) as [P' E]. exists P', (-1024). split; [|split; [apply (proj1 (C41_SetByName.set_then_get P P') _ _ E)|vm_compute; reflexivity]].
    change (txt "--temp=-2048") with (txt "--temp=" ++ txt "-2048")%list. rewrite K, A.
    assert (Q : parseInt (txt "-2048") = (true, -2048)) by (vm_compute; reflexivity). rewrite Q. change (-2048 =? INT_MIN) with false.
    change (if temp_implies (-2048) then enable_temp_option (-2048) GEN_TIKZ_STRING else -2048) with (-1024). cbn iota. rewrite E. reflexivity.
  - change (txt "--temp=-2147483648") with (txt "--temp=" ++ txt "-2147483648")%list. rewrite K, A.
    assert (Q : parseInt (txt "-2147483648") = (true, -2147483648)) by (vm_compute; reflexivity). rewrite Q. reflexivity.
Qed.
(** --tikz adds the option named, with GEN_TIKZ_STRING, to what is there; any other name ends the program. *)
Definition tikz_name (v : text) (o : tempOption) : Prop :=
  (v = txt "GEN_TIKZ_STRING" /\ o = GEN_TIKZ_STRING) \/ (v = txt "GEN_TIKZ_STRING_WITH_VPCS" /\ o = GEN_TIKZ_STRING_WITH_VPCS) \/
  (v = txt "GEN_TIKZ_STRING_WITH_GMICS" /\ o = GEN_TIKZ_STRING_WITH_GMICS) \/ (v = txt "GEN_TIKZ_STRING_AND_RETURN" /\ o = GEN_TIKZ_STRING_AND_RETURN) \/
  (v = txt "GEN_TIKZ_STRING_AND_EXIT" /\ o = GEN_TIKZ_STRING_AND_EXIT).
Theorem tikz_option : forall v args P s, spelled "tikz"%string None v args -> reach st P -> get_int P TEMP = Done s ->
  ((forall o, ~ tikz_name v o) -> forall rest, run P (args ++ rest) = Exit1) /\
  (forall o, tikz_name v o -> exists P' s', get_int P' TEMP = Done s' /\ same_but_int TEMP P P' /\ reach st P' /\ (forall rest, run P (args ++ rest) = run P' rest) /\
     forall o', use_temp_option s' o' = true <-> use_temp_option s o' = true \/ o' = o \/ o' = GEN_TIKZ_STRING).
Proof.
  intros v args P s S R G. destruct (run_other P "tikz" None v args) as (c & C & K); [vm_compute; tauto|exact S|].
  apply (returns_of "tikz" (req "tikz" (ch "t" * ch "2"))) in C; [|vm_compute; reflexivity]. subst c. cbn [process] in K.
  assert (A : action_of (lo_val (req "tikz" (ch "t" * ch "2"))) = ATikz) by reflexivity. rewrite A, G in K. cbn [bind] in K. clear A.
  assert (J := proj2 (C42_Domains.int_domain st P TEMP s R G)).
  assert (F : forall o, tikz_name v o -> find (fun e => text_eqb v (fst e)) tikz_names = Some (v, o)).
  { intros o H. destruct H as [[-> ->]|[[-> ->]|[[-> ->]|[[-> ->]|[-> ->]]]]]; vm_compute; reflexivity. }
  split.
  - intros N rest. rewrite K. destruct (find _ tikz_names) as [[w o]|] eqn:E; [|reflexivity]. exfalso. apply find_some in E. destruct E as [I E]. cbn [fst] in E. apply text_eqb_eq in E. subst w.
    apply (N o). unfold tikz_name. cbn [In tikz_names] in I. destruct I as [I|[I|[I|[I|[I|[]]]]]]; injection I as <- <-; tauto.
  - intros o H. rewrite (F o H) in K. destruct (C43_OptionBits.temp_options s o NONE J) as (_ & _ & _ & J1 & _). destruct (C43_OptionBits.temp_options _ GEN_TIKZ_STRING NONE J1) as (_ & _ & _ & J2 & _).
    destruct (proj1 (C42_Domains.int_set_iff st P TEMP _ R J2) Logic.I) as [P' E]. rewrite E in K. destruct (proj1 (C41_SetByName.set_then_get P P') _ _ E) as [V1 A1].
    exists P'. eexists. split; [exact V1|]. split; [exact A1|]. split; [exact (reach_step st P (SetInt TEMP _) P' R J2 E)|]. split; [exact K|]. intro o'.
    rewrite (proj1 (C43_OptionBits.temp_options _ GEN_TIKZ_STRING o' J1)), (proj1 (C43_OptionBits.temp_options s o o' J)).
    assert (o <> NONE) by (intros ->; destruct H as [[_ H]|[[_ H]|[[_ H]|[[_ H]|[_ H]]]]]; discriminate). split; [tauto|]. intros [H1|[H1|H1]]; [tauto|left; right; tauto|right; split; [exact H1|discriminate]].
Qed.

(** ** Help and mistakes. *)
Lemma status_one es : forall P P' s, process_all b st P 1 es = Done (P', s) -> s = 1.
Proof.
  assert (K : forall P e P' s, process b st P 1 e = Done (P', s) -> s = 1).
  { intros P [c arg] P' s. cbn [process]. assert (O : forall r, bind r (fun P' : params => Done (P', 1)) = Done (P', s) -> s = 1) by (intros [] H; cbn [bind] in H; congruence).
    destruct (action_of c) as [p|p|p| |zero one after| | | |].
    - destruct (parseInt arg) as [[] w]; [apply O|discriminate].
    - destruct (parseDouble (st arg)) as [[] w]; [apply O|discriminate].
    - apply O.
    - destruct (parseInt arg) as [[] w]; [|discriminate]. destruct (set_int P BB_STRATEGY w); try discriminate. cbn [bind]. destruct (_ && _); [discriminate|]. destruct (_ && _); [discriminate|]. congruence.
    - destruct (parseInt arg) as [rc w]. destruct (negb rc || _); [discriminate|]. destruct (get_int P BB_STRATEGY); try discriminate. apply O.
    - destruct (parseInt arg) as [[] w]; [|discriminate]. destruct (set_int P PREPROCESS w) as [P1| | |]; try discriminate. cbn [bind]. destruct (set_int P1 BB_RUNS 1) as [P2| | |]; try discriminate. cbn [bind].
      destruct (set_int P2 BB_MODE 1) as [P3| | |]; try discriminate. cbn [bind]. destruct (set_int P3 BB_STRATEGY _) as [P4| | |]; try discriminate. apply O.
    - destruct (parseInt arg) as [[] w]; [|discriminate]. destruct (w =? INT_MIN); [discriminate|apply O].
    - destruct (get_int P TEMP); try discriminate. cbn [bind]. destruct (find _ tikz_names) as [[]|]; [apply O|discriminate].
    - congruence. }
  induction es as [|e es IH]; intros P P' s H; cbn [process_all] in H; [congruence|].
  destruct (process b st P 1 e) as [[P1 s1]| | |] eqn:E; try discriminate. cbn [bind] in H. apply K in E. subst s1. exact (IH _ _ _ H).
Qed.
Lemma complaint_status w : (forall rest, exists tail, getopt_long (w :: rest) = (ch "h", []) :: tail \/ getopt_long (w :: rest) = bad :: tail) ->
  forall l rest P P' s, Forall is_setting l -> reach st P -> run P (words l ++ w :: rest) = Done (P', s) -> s = 1.
Proof.
  intros C l rest P P' s F. revert P. induction F as [|[[args t] v] l S F IH]; intros P R H.
  - cbn [words flat_map app] in H. destruct (C rest) as (tail & E). unfold processArgs in H. destruct E as [E|E]; rewrite E in H; cbn [process_all] in H; apply (status_one tail P P' s H).
  - cbn [words flat_map] in H. fold (words l) in H. rewrite <- app_assoc in H. destruct (step_effect args t v _ P P' s S R H) as (P1 & H1 & R1 & _). exact (IH P1 R1 H1).
Qed.
(** The words that make the program print its help: -h, --help, an unknown or ambiguous long name, an unknown letter. *)
Inductive asks_help : text -> Prop :=
| ah_short : asks_help (txt "-h")
| ah_long a : stands_for a "help"%string -> asks_help (txt "--" ++ a)%list
| ah_name a : a <> [] -> ~ In "="%char a -> (forall n, In n long_names -> ~ stands_for a n) -> asks_help (txt "--" ++ a)%list
| ah_name_eq a v : ~ In "="%char a -> (forall n, In n long_names -> ~ stands_for a n) -> asks_help (txt "--" ++ a ++ "="%char :: v)%list
| ah_letter l r : l <> "-"%char -> ~ In l (txt "bBcdDfghilmorRsStTv") -> asks_help ("-"%char :: l :: r).
Lemma short_unknown l : ~ In l (txt "bBcdDfghilmorRsStTv") -> short_kind l = None.
Proof.
  intro H. unfold short_kind. destruct (Ascii.eqb l ":"%char || Ascii.eqb l ";"%char) eqn:E; [reflexivity|]. apply orb_false_iff in E. destruct E as [E _]. apply Ascii.eqb_neq in E.
  assert (K : forall opts, (forall x, In x opts -> l <> x) -> find_short l opts = None).
  { induction opts as [|x opts IH]; intro N; [reflexivity|]. cbn [find_short]. destruct (Ascii.eqb_spec l x) as [->|_]; [exfalso; apply (N x); [left; reflexivity|reflexivity]|]. apply IH. intros; apply N; right; assumption. }
  apply K. intros x Hx ->. assert (M : forallb (fun x => Ascii.eqb x ":"%char || existsb (Ascii.eqb x) (txt "bBcdDfghilmorRsStTv")) short_opts = true) by (vm_compute; reflexivity).
  rewrite forallb_forall in M. specialize (M x Hx). apply orb_true_iff in M. destruct M as [M|M]; [apply Ascii.eqb_eq in M; contradiction|]. apply existsb_exists in M. destruct M as (y & Hy & M). apply Ascii.eqb_eq in M. subst y. contradiction.
Qed.
Lemma find_long_none a : (forall n, In n long_names -> ~ stands_for a n) -> find_long a = None.
Proof.
  intro H. destruct (find_long a) as [o|] eqn:E; [|reflexivity]. exfalso. apply find_long_iff in E. destruct E as [I E].
  destruct (proj1 (table_names (lo_name o)) (in_map _ _ _ I)) as (n & L & N). apply (H n L). destruct E as [->|[S U]]; [left; exact N|]. right. rewrite <- N. split; [exact S|].
  intros n' L' S'. apply txt_inj. rewrite <- N. assert (M := proj2 (table_names (txt n')) (ex_intro _ n' (conj L' eq_refl))). apply in_map_iff in M. destruct M as (o' & E' & I'). rewrite <- E'. f_equal. apply U; [exact I'|]. rewrite E'. exact S'.
Qed.
(** If the line asks for help, or has such a mistake, the program does not start (but later values are still checked). *)
Theorem help_stops : forall l w rest P P' s, Forall is_setting l -> reach st P -> asks_help w -> run P (words l ++ w :: rest) = Done (P', s) -> s = 1.
Proof.
  intros l w rest P P' s F R A. apply complaint_status; [|exact F|exact R]. clear - A. intro rest. destruct A as [|a S|a N E U|a v E U|x r D N].
  - eexists. left. reflexivity.
  - assert (L : In "help"%string long_names) by (left; reflexivity). eexists. left. change (txt "--" ++ a)%list with ("-"%char :: "-"%char :: a). rewrite getopt_dashes by (apply (stands_ne a _ L S)).
    unfold after_dashes. rewrite split_eq_none by (apply (stands_no_eq a _ L S)). rewrite (find_abbrev a _ L S). reflexivity.
  - eexists. right. change (txt "--" ++ a)%list with ("-"%char :: "-"%char :: a). rewrite getopt_dashes by exact N. unfold after_dashes. rewrite split_eq_none by exact E. rewrite (find_long_none a U). reflexivity.
  - eexists. right. change (txt "--" ++ a ++ "="%char :: v)%list with ("-"%char :: "-"%char :: a ++ "="%char :: v). rewrite getopt_dashes by (destruct a; discriminate). unfold after_dashes. rewrite split_eq_some by exact E. rewrite (find_long_none a U). reflexivity.
  - assert (G : getopt_long (("-"%char :: x :: r) :: rest) = let '(es, w) := short_group (x :: r) in es ++ match w with None => getopt_long rest | Some c => match rest with v :: rest' => (c, v) :: getopt_long rest' | [] => [bad] end end).
    { clear N. destruct x as [[] [] [] [] [] [] [] []]; try reflexivity; congruence. }
    cbn [short_group] in G. rewrite (short_unknown x N) in G. destruct (short_group r) as [es w]. eexists. right. etransitivity; [exact G|]. reflexivity.
Qed.
(** An option that lacks its value, at the end of the line. *)
Theorem missing_value : forall l n c w P P' s, Forall is_setting l -> reach st P -> In (n, c) valued ->
  (w = (txt "--" ++ txt n)%list \/ exists x, c = Some x /\ w = ["-"%char; x]) -> run P (words l ++ [w]) = Done (P', s) -> s = 1.
Proof.
  intros l n c w P P' s F R I W. assert (E : getopt_long [w] = [bad]).
  { destruct (valued_table n c I) as (L & z & (o & Fo & A & V) & C). destruct W as [->|(x & -> & ->)].
    - assert (S : stands_for (txt n) n) by (left; reflexivity). change (txt "--" ++ txt n)%list with ("-"%char :: "-"%char :: txt n). rewrite getopt_dashes by (apply (stands_ne _ n L S)). unfold after_dashes. rewrite split_eq_none by (apply (stands_no_eq _ n L S)). rewrite Fo, A. reflexivity.
    - destruct C as (K & _ & ND). assert (G : getopt_long [["-"%char; x]] = let '(es, w) := short_group [x] in es ++ match w with None => [] | Some c => [bad] end).
      { clear K. destruct x as [[] [] [] [] [] [] [] []]; try reflexivity; congruence. }
      etransitivity; [exact G|]. cbn [short_group]. rewrite K. reflexivity. }
  clear W. revert P R. induction F as [|[[args t] v] l S F IH]; intros P R H.
  - cbn [words flat_map app] in H. unfold processArgs in H. rewrite E in H. cbn [process_all] in H. apply (status_one [] P P' s H).
  - cbn [words flat_map] in H. fold (words l) in H. rewrite <- app_assoc in H. destruct (step_effect args t v _ P P' s S R H) as (P1 & H1 & R1 & _). exact (IH P1 R1 H1).
Qed.

(** ** Starting up. *)
Context (stod : text -> option dbl).
(** A value that counts as given: below the largest double (the parameter's initial value), by at least one 10^-7 unit. *)
Definition given_value (v : dbl) : Prop := match v with DFin q => (q <= DBL_MAXv - (1 # 10000000))%Q | DInf neg => neg = true | DNaN => False end.
Definition csv_file (opt : text) : Prop := exists base, base <> [] /\ opt = (base ++ txt ".csv")%list.
Lemma given_iff v : d_isInfinity v dbl_max = false <-> given_value v.
Proof.
  unfold d_isInfinity, dbl_max, d_lessThanVal, d_sub, d_le, given_value, EPS7. destruct v as [q|[]|].
  - destruct (Qle_bool DBL_MAXv q) eqn:A; destruct (Qle_bool q (DBL_MAXv - (1 # 10000000))) eqn:B; cbn [orb negb].
    + apply Qle_bool_iff in A, B. split; [discriminate|]. intro C. exfalso. generalize dependent DBL_MAXv. intros; lra.
    + split; [discriminate|]. intro C. apply Qle_bool_iff in C. congruence.
    + split; [intros _; apply Qle_bool_iff, B|reflexivity].
    + split; [discriminate|]. intro C. apply Qle_bool_iff in C. congruence.
  - cbn. split; reflexivity.
  - cbn. split; discriminate.
  - cbn. split; [discriminate|intros []].
Qed.
Lemma ends_csv opt : ends_with (txt ".csv") opt = true <-> csv_file opt.
Proof.
  unfold ends_with, csv_file. rewrite andb_true_iff, Nat.ltb_lt, text_eqb_eq. split.
  - intros [L E]. exists (firstn (List.length opt - List.length (txt ".csv")) opt). split.
    + intro K. apply (f_equal (@List.length ascii)) in K. rewrite firstn_length in K. cbn [List.length] in K. lia.
    + rewrite <- E at 2. symmetry. apply firstn_skipn.
  - intros (base & N & ->). rewrite app_length. split; [destruct base; [congruence|]; cbn [List.length]; lia|].
    replace (List.length base + List.length (txt ".csv") - List.length (txt ".csv"))%nat with (List.length base) by lia. rewrite skipn_app, skipn_all, Nat.sub_diag. reflexivity.
Qed.
Section Start.
Context (P0 P : params) (args : list text) (file dir inst ext opt : text) (v : dbl).
Hypothesis accepted : run P0 args = Done (P, 0).
Hypothesis file_is : get_string P FILENAME = Done file.
Hypothesis opt_is : get_string P OPTFILE = Done opt.
Hypothesis obj_is : get_double P IP_OBJ = Done v.
Notation start lines := (startUp b st stod lines P0 args).
Lemma start_unfold lines : file <> [] -> parseFilename file = Parsed dir inst ext -> start lines =
  let ip := if d_isInfinity v dbl_max then dbl_max else v in
  if d_isInfinity ip dbl_max && negb (match opt with [] => true | _ => false end) && ends_with (txt ".csv") opt then
    match getObjValueFromFile stod opt lines file with
    | ObjValue w => bind (set_double P IP_OBJ w) (fun P' => Done (Started P' dir inst ext w))
    | ObjDefault => bind (set_double P IP_OBJ dbl_lowest) (fun P' => Done (Started P' dir inst ext dbl_lowest))
    | ObjTerminate => Terminated
    | ObjExit => Exit1
    end
  else Done (Started P dir inst ext ip).
Proof.
  intros N E. unfold startUp. rewrite accepted. cbn [bind Z.eqb negb]. rewrite file_is. cbn [bind]. rewrite E. destruct file; [congruence|]. rewrite obj_is. cbn [bind]. rewrite opt_is. reflexivity.
Qed.
(** Without a file name, or with one that cannot be taken apart, the program ends. *)
Theorem start_needs_file : forall lines, file = [] \/ (exists e, parseFilename file = ParseErr e) -> start lines = Exit1.
Proof. intros lines H. unfold startUp. rewrite accepted. cbn [bind Z.eqb negb]. rewrite file_is. cbn [bind]. destruct H as [-> |[e E]]; [reflexivity|]. rewrite E. destruct file; reflexivity. Qed.
(** The optimal value of -i has precedence over the file of -o, which is not read. *)
Theorem start_value_given : forall lines, file <> [] -> parseFilename file = Parsed dir inst ext -> given_value v -> start lines = Done (Started P dir inst ext v).
Proof. intros lines N E G. rewrite (start_unfold lines N E). apply given_iff in G. cbv zeta. rewrite G. cbn iota. rewrite G. reflexivity. Qed.
(** Otherwise it comes from the line about the instance, when the file is a .csv file; and the parameter is set to it. *)
Theorem start_value_read : forall pre l post tok q, reach st P -> file <> [] -> parseFilename file = Parsed dir inst ext -> ~ given_value v -> csv_file opt ->
  C38_ReadFiles.field inst l tok -> stod tok = Some (DFin q) -> (forall l', In l' pre -> ~ C38_ReadFiles.about inst l') ->
  exists P', start (Some (pre ++ l :: post)) = Done (Started P' dir inst ext (DFin q)) /\ get_double P' IP_OBJ = Done (DFin q) /\ same_but_double IP_OBJ P P'.
Proof.
  intros pre l post tok q R N E G C F V U. rewrite (start_unfold _ N E). cbv zeta. destruct (d_isInfinity v dbl_max) eqn:D; [|exfalso; apply G, given_iff, D].
  change (d_isInfinity dbl_max dbl_max) with true. assert (NO : opt <> []) by (destruct C as (base & B & ->); destruct base; discriminate).
  rewrite (proj2 (ends_csv opt) C). rewrite (proj2 (proj2 (C38_ReadFiles.lookup_file stod opt None file)) (pre ++ l :: post) dir inst ext NO E).
  rewrite (proj2 (C38_ReadFiles.lookup_value stod inst (pre ++ l :: post) (DFin q))).
  - destruct opt; [congruence|]. cbn [andb negb]. destruct (proj1 (C42_Domains.double_set_iff st P IP_OBJ (DFin q) R ltac:(discriminate)) (or_intror Logic.I)) as [P' S]. rewrite S. exists P'. split; [reflexivity|].
    apply (proj1 (proj2 (C41_SetByName.set_then_get P P')) _ _ S).
  - exists pre, l, post, tok. split; [reflexivity|]. split; [exact F|]. split; [exact V|]. intros l' Hl A. exfalso. exact (U l' Hl A).
Qed.
(** A file of another kind is not read: the value stays unknown. *)
Theorem start_value_other : forall lines, file <> [] -> parseFilename file = Parsed dir inst ext -> ~ given_value v -> ~ csv_file opt -> start lines = Done (Started P dir inst ext dbl_max).
Proof.
  intros lines N E G C. rewrite (start_unfold _ N E). cbv zeta. destruct (d_isInfinity v dbl_max) eqn:D; [|exfalso; apply G, given_iff, D].
  destruct (ends_with (txt ".csv") opt) eqn:W; [exfalso; apply C, ends_csv, W|]. rewrite andb_false_r. reflexivity.
Qed.
(** Refuted: an instance that is not in the file keeps an unknown (infinite) optimal value, of which the program warns.  It gets
    the smallest double, which is not infinite, so the warning is never printed. *)
Theorem start_value_missing_refuted : forall lines, reach st P -> file <> [] -> parseFilename file = Parsed dir inst ext -> ~ given_value v -> csv_file opt ->
  (forall l, In l lines -> ~ C38_ReadFiles.about inst l) ->
  exists P', start (Some lines) = Done (Started P' dir inst ext dbl_lowest) /\ get_double P' IP_OBJ = Done dbl_lowest /\ d_isInfinity dbl_lowest dbl_max = false.
Proof.
  intros lines R N E G C U. rewrite (start_unfold _ N E). cbv zeta. destruct (d_isInfinity v dbl_max) eqn:D; [|exfalso; apply G, given_iff, D].
  change (d_isInfinity dbl_max dbl_max) with true. assert (NO : opt <> []) by (destruct C as (base & B & ->); destruct base; discriminate).
  rewrite (proj2 (ends_csv opt) C). rewrite (proj2 (proj2 (C38_ReadFiles.lookup_file stod opt None file)) lines dir inst ext NO E).
  rewrite (proj2 (C38_ReadFiles.lookup_default stod inst lines)) by (intros l Hl A; exfalso; exact (U l Hl A)).
  destruct opt; [congruence|]. cbn [andb negb]. destruct (proj1 (C42_Domains.double_set_iff st P IP_OBJ dbl_lowest R ltac:(discriminate)) (or_intror Logic.I)) as [P' S]. rewrite S. exists P'. split; [reflexivity|].
  split; [apply (proj1 (proj2 (C41_SetByName.set_then_get P P')) _ _ S)|vm_compute; reflexivity].
Qed.
End Start.
(** When the line asks for help nothing is started. *)
Theorem start_help : forall lines P0 P args s, run P0 args = Done (P, s) -> s <> 0 -> startUp b st stod lines P0 args = Done (Stopped s).
Proof. intros lines P0 P args s H N. unfold startUp. rewrite H. cbn [bind]. apply Z.eqb_neq in N. rewrite N. reflexivity. Qed.
End Runs.
Print Assumptions spelling.
Print Assumptions operands_ignored.
Print Assumptions end_of_options.
Print Assumptions int_option.
Print Assumptions int_option_wraps_refuted.
Print Assumptions double_option.
Print Assumptions string_option.
Print Assumptions last_wins.
Print Assumptions all_accepted.
Print Assumptions any_rejected.
Print Assumptions toggle_option.
Print Assumptions best_bound_off_refuted.
Print Assumptions heuristics_presolve_refuted.
Print Assumptions strategy_option.
Print Assumptions unbuilt_solver_refuted.
Print Assumptions preprocess_option.
Print Assumptions temp_option.
Print Assumptions temp_negative_refuted.
Print Assumptions tikz_option.
Print Assumptions help_stops.
Print Assumptions missing_value.
Print Assumptions start_needs_file.
Print Assumptions start_value_given.
Print Assumptions start_value_read.
Print Assumptions start_value_other.
Print Assumptions start_value_missing_refuted.
Print Assumptions start_help.

(** ** Cases that meet the hypotheses. *)
Definition exst (t : text) : strtod_result := {| sd_val := DFin 300; sd_rest := Some []; sd_erange := false |}.
Definition exb : build := {| b_gurobi := false; b_cplex := false; b_cbc := true |}.
Definition exline : list setting :=
  [ ([txt "-d"; txt "4"], TInt DISJ_TERMS, txt "4"); ([txt "-f"; txt "dir/bm23.mps"], TString FILENAME, txt "dir/bm23.mps");
    ([txt "--timel=300"], TDouble TIMELIMIT, txt "300"); ([txt "--disj_terms=64"], TInt DISJ_TERMS, txt "64"); ([txt "-r2"], TInt ROUNDS, txt "2") ].
Lemma starts_dec a n : starts a (txt n) <-> is_prefix a (txt n) = true.
Proof. symmetry. apply is_prefix_starts. Qed.
Lemma abbreviates a n : (forallb (fun n' => negb (is_prefix a (txt n')) || String.eqb n' n) long_names && is_prefix a (txt n))%bool = true -> stands_for a n.
Proof.
  intro H. apply andb_true_iff in H. destruct H as [A B]. right. split; [apply is_prefix_starts, B|]. intros n' I S. rewrite forallb_forall in A. specialize (A n' I). apply is_prefix_starts in S. rewrite S in A. apply String.eqb_eq, A.
Qed.
Example line_is_settings : Forall is_setting exline.
Proof.
  repeat constructor.
  - exists "disj_terms"%string, (Some "d"%char). split; [vm_compute; tauto|apply (sp_letter _ _ _ "d"%char); reflexivity].
  - exists "file"%string, (Some "f"%char). split; [vm_compute; tauto|apply (sp_letter _ _ _ "f"%char); reflexivity].
  - exists "timelimit"%string, (Some "t"%char). split; [vm_compute; tauto|]. apply (sp_equals _ _ _ (txt "timel")). apply abbreviates. vm_compute. reflexivity.
  - exists "disj_terms"%string, (Some "d"%char). split; [vm_compute; tauto|]. apply (sp_equals _ _ _ (txt "disj_terms")). left. reflexivity.
  - exists "rounds"%string, (Some "r"%char). split; [vm_compute; tauto|]. apply (sp_joined _ _ _ "r"%char); [reflexivity|discriminate].
Qed.
Example line_runs : exists P', processArgs exb exst new_params (words exline) = Done (P', 0) /\
  get_int P' DISJ_TERMS = Done 64 /\ get_string P' FILENAME = Done (txt "dir/bm23.mps") /\ get_double P' TIMELIMIT = Done (DFin 300) /\ get_int P' ROUNDS = Done 2 /\ get_int P' GOMORY = Done 0.
Proof. eexists. split; [vm_compute; reflexivity|]. vm_compute. auto 10. Qed.
Example line_last : last_given (TInt DISJ_TERMS) exline (txt "64") /\ not_given (TInt GOMORY) exline /\ readable (txt "64") 64.
Proof.
  split; [exists (firstn 3 exline), [txt "--disj_terms=64"], (skipn 4 exline); split; [reflexivity|]; intros s [<-|[]]; discriminate|]. split.
  - intros s H. repeat (destruct H as [<-|H]; [discriminate|]). destruct H.
  - split; [|lia]. exists [], [], (txt "64"). split; [reflexivity|]. split; [constructor|]. split; [repeat constructor; vm_compute; lia|]. split; [discriminate|]. left. split; [left; reflexivity|reflexivity].
Qed.
Example mistakes : asks_help (txt "--bb_s=1") /\ asks_help (txt "-x") /\ asks_help (txt "--he").
Proof.
  split; [|split].
  - apply (ah_name_eq (txt "bb_s") (txt "1")).
    + vm_compute. intuition discriminate.
    + intros n L [E|[_ U]].
      * assert (K : forallb (fun n => negb (text_eqb (txt "bb_s") (txt n))) long_names = true) by (vm_compute; reflexivity).
        rewrite forallb_forall in K. specialize (K n L). rewrite E, text_eqb_refl in K. discriminate.
      * assert (A : "bb_strategy"%string = n) by (apply U; [vm_compute; tauto|eexists; reflexivity]). assert (B : "bb_strong_branching"%string = n) by (apply U; [vm_compute; tauto|eexists; reflexivity]). subst n. discriminate.
  - apply ah_letter; [discriminate|vm_compute; intuition discriminate].
  - apply (ah_long (txt "he")). apply abbreviates. vm_compute. reflexivity.
Qed.
Example outcomes :
  processArgs exb exst new_params [txt "-m"; txt "2"] = Exit1 /\ processArgs exb exst new_params [txt "--rounds=two"] = Exit1 /\
  processArgs exb exst new_params [txt "-B"; txt "536"] = Exit1 /\ processArgs exb exst new_params [txt "--cbc=2"] = Exit1 /\
  (exists P', processArgs exb exst new_params [txt "--rounds=4294967297"] = Done (P', 0) /\ get_int P' ROUNDS = Done 1) /\
  (exists P', processArgs exb exst new_params [txt "-d"; txt "4"; txt "--bb_s=1"] = Done (P', 1)) /\
  (exists P', processArgs exb exst new_params [txt "-t"; txt "300"; txt "--preprocess=0"] = Done (P', 0) /\ get_double P' TIMELIMIT = Done (DFin 7200)).
Proof.
  repeat match goal with |- _ /\ _ => split end; try (vm_compute; reflexivity).
  - eexists. split; vm_compute; reflexivity.
  - eexists. vm_compute. reflexivity.
  - eexists. split; vm_compute; reflexivity.
Qed.
Example starts_up : exists P, startUp exb exst (fun _ => Some (DFin 7)) (Some [txt "stein27,18"; txt "bm23,34"]) new_params (words exline ++ [txt "-o"; txt "opt.csv"]) = Done (Started P (txt "dir") (txt "bm23") (txt "mps") (DFin 7)).
Proof. eexists. vm_compute. reflexivity. Qed.
