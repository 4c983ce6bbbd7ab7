(** C41: setting parameters: by enumerator (works), by name and from a file (refuted), and the option
    list of DISJ_OPTIONS. *)
From Verif Require Import Prelude Model.TextUtil Model.Parameters Spec.TextSpec Spec.ParamSpec Proofs.TextP Proofs.ParamP.
#[local] Open Scope Z_scope.

(** Every parameter always has a value: reading never goes through a missing entry. *)
Theorem parameters_present : forall st P, reach st P ->
  (forall k, exists v, get_int P k = Done v) /\ (forall k, exists v, get_double P k = Done v) /\
  (forall k, exists v, get_string P k = Done v).
Proof.
  intros st P R. apply reach_wf in R. split; [|split]; intro k.
  - destruct (wf_int P k R) as (p & E & _). exists (ip_val p). unfold get_int. rewrite E. reflexivity.
  - destruct (wf_double P k R) as (p & E & _). exists (dp_val p). unfold get_double. rewrite E. reflexivity.
  - destruct (wf_string P k R) as (p & E & _). exists (sp_val p). unfold get_string. rewrite E. reflexivity.
Qed.
Print Assumptions parameters_present.

(** Setting by enumerator: the value is read back and nothing else changes. *)
Theorem set_then_get : forall P P',
  (forall k v, set_int P k v = Done P' -> get_int P' k = Done v /\ same_but_int k P P') /\
  (forall k v, set_double P k v = Done P' -> get_double P' k = Done v /\ same_but_double k P P') /\
  (forall k v, set_string P k v = Done P' -> get_string P' k = Done v /\ same_but_string k P P').
Proof.
  intros P P'. split; [|split]; intros k v H.
  - apply set_int_effect, H.
  - apply set_double_effect, H.
  - apply set_string_effect, H.
Qed.
Print Assumptions set_then_get.

(** Setting a string never fails. *)
Theorem set_string_total : forall st P k v, reach st P -> exists P', set_string P k v = Done P'.
Proof.
  intros st P k v R. apply reach_wf in R. destruct (wf_string P k R) as (p & E & _).
  unfold set_string. rewrite E. eexists. reflexivity.
Qed.
Print Assumptions set_string_total.

Example set_then_get_meets : exists P', set_int new_params DISJ_TERMS 64 = Done P' /\
  get_int P' DISJ_TERMS = Done 64 /\ get_int new_params DISJ_TERMS = Done 0.
Proof. eexists. split; [vm_compute; reflexivity|]. split; vm_compute; reflexivity. Qed.

(** ** By name: refuted.  Whatever the name (known or not), the call returns true, changes CUTLIMIT
    and nothing else; the value stored is 1 or 0 (whether the text is a number), except for the two
    texts for infinity. *)
Theorem set_by_name_refuted : forall st P name value, reach st P ->
  exists P', set_by_name st P name value = Done (P', true) /\ same_but_int CUTLIMIT P P' /\
    (value = txt "+inf" -> get_int P' CUTLIMIT = Done 2147483647) /\
    (value = txt "-inf" -> get_int P' CUTLIMIT = Done (-2147483648)) /\
    (value <> txt "+inf" -> value <> txt "-inf" ->
       (fst (parseInt value) = true -> get_int P' CUTLIMIT = Done 1) /\
       (fst (parseInt value) = false -> get_int P' CUTLIMIT = Done 0)).
Proof.
  intros st P n t R. destruct (set_by_name_done st P n t (reach_wf _ _ R)) as (P' & E & E').
  apply set_int_effect in E'. destruct E' as [V S]. exists P'. split; [exact E|]. split; [exact S|]. rewrite V.
  unfold int_from. split; [intros ->; reflexivity|]. split; [intros ->; reflexivity|].
  intros N1 N2. destruct (text_eqb t (txt "+inf")) eqn:Q1; [apply text_eqb_eq in Q1; contradiction|].
  destruct (text_eqb t (txt "-inf")) eqn:Q2; [apply text_eqb_eq in Q2; contradiction|].
  split; intros ->; reflexivity.
Qed.
Print Assumptions set_by_name_refuted.

(** Concretely: asking for 64 disjunctive terms leaves DISJ_TERMS at 0 and sets the cut limit to 1; an
    unknown name does the same and also reports success. *)
Example set_by_name_example : forall st,
  exists P', set_by_name st new_params (txt "disj_terms") (txt "64") = Done (P', true) /\
    get_int P' DISJ_TERMS = Done 0 /\ get_int P' CUTLIMIT = Done 1 /\
    set_by_name st new_params (txt "no_such_parameter") (txt "64") = Done (P', true).
Proof. intro st. eexists. split; [vm_compute; reflexivity|]. split; [|split]; vm_compute; reflexivity. Qed.

(** What the lookup was meant to compare is unambiguous: no two parameters have the same name up to
    case and underscores. *)
Theorem names_distinct : forall st P, reach st P ->
  let names := map (fun e => ip_name (snd e)) (ints P) ++ map (fun e => dp_name (snd e)) (doubles P)
               ++ map (fun e => sp_name (snd e)) (strings P) in
  NoDup (map upperCaseStringNoUnderscore names) /\ length names = 39%nat.
Proof.
  intros st P R names. apply reach_wf in R. destruct R as (H1 & H2 & H3 & _).
  assert (E : names = map (fun e => ip_name (snd e)) intTable ++ map (fun e => dp_name (snd e)) doubleTable
               ++ map (fun e => sp_name (snd e)) stringTable).
  { unfold names. f_equal; [|f_equal].
    - apply (f_equal (map (fun e => fst (fst (fst (snd e)))))) in H1. unfold shape in H1. rewrite !map_map in H1. exact H1.
    - apply (f_equal (map (fun e => fst (fst (snd e))))) in H2. unfold shape in H2. rewrite !map_map in H2. exact H2.
    - apply (f_equal (map (fun e => snd e))) in H3. unfold shape in H3. rewrite !map_map in H3. exact H3. }
  rewrite E. split; [|reflexivity].
  assert (D : forall a b : text, {a = b} + {a <> b}) by (apply list_eq_dec, ascii_dec).
  assert (T : forall l : list text, (fix go l := match l with [] => true
     | x :: r => negb (existsb (text_eqb x) r) && go r end) l = true -> NoDup l).
  { induction l as [|x r IH]; intro H; [constructor|]. apply andb_true_iff in H. destruct H as [N G].
    constructor; [|apply IH, G]. intro I. apply negb_true_iff in N.
    assert (C : existsb (text_eqb x) r = true) by (apply existsb_exists; exists x; split; [exact I|apply text_eqb_refl]).
    congruence. }
  apply T. vm_compute. reflexivity.
Qed.
Print Assumptions names_distinct.

(** ** Reading a parameter file.  A line is complete when it is empty or has something after its first
    comma.  Unopenable file: exit(1).  Any incomplete line: std::terminate.  Otherwise the call
    returns, and at most CUTLIMIT differs. *)
Definition line_complete (l : text) : Prop :=
  l = [] \/ exists name value, l = name ++ ","%char :: value /\ ~ In ","%char name /\ value <> [].

Lemma getline_tok_split d s : let '(t, r) := getline_tok d s in
  ~ In d t /\ (s = t ++ d :: r \/ (s = t /\ r = [])).
Proof.
  induction s as [|c s IH]; cbn [getline_tok]; [split; [intros []|right; split; reflexivity]|].
  destruct (Ascii.eqb_spec c d) as [->|N]; [split; [intros []|left; reflexivity]|].
  destruct (getline_tok d s) as [t r]. destruct IH as [I1 I2]. split.
  - intros [E|I]; [congruence|apply I1, I].
  - destruct I2 as [->|[-> ->]]; [left; reflexivity|right; split; reflexivity].
Qed.
Lemma getline_tok_app d t r : ~ In d t -> getline_tok d (t ++ d :: r) = (t, r).
Proof.
  induction t as [|c t IH]; intro N; cbn [app getline_tok]; [rewrite Ascii.eqb_refl; reflexivity|].
  destruct (Ascii.eqb_spec c d) as [->|E]; [exfalso; apply N; left; reflexivity|].
  rewrite IH; [reflexivity|]. intro I. apply N. right. exact I.
Qed.
Lemma same_but_int_trans k P Q R : same_but_int k P Q -> same_but_int k Q R -> same_but_int k P R.
Proof. intros (A & B & C) (D & E & F). split; [|split]; intros; [rewrite D, A|rewrite E, B|rewrite F, C]; auto. Qed.

Theorem read_params : forall st P, reach st P ->
  readParams st P None = Exit1 /\
  (forall ls, Forall line_complete ls ->
     exists P', readParams st P (Some ls) = Done P' /\ same_but_int CUTLIMIT P P') /\
  (forall ls, ~ Forall line_complete ls -> readParams st P (Some ls) = Terminated).
Proof.
  intros st P R. split; [reflexivity|]. apply reach_wf in R. cbn [readParams]. split; intro ls; revert P R.
  - induction ls as [|l ls IH]; intros P W F.
    + exists P. split; [reflexivity|]. split; [|split]; reflexivity.
    + apply Forall_cons_iff in F. destruct F as [L F]. cbn [read_lines]. destruct L as [->|(n & v & -> & N & NV)].
      * cbn [getline]. apply IH; assumption.
      * assert (G : getline ","%char (n ++ ","%char :: v) = Some (n, v)).
        { unfold getline. destruct (n ++ _) eqn:E; [destruct n; discriminate|]. rewrite <- E.
          rewrite getline_tok_app by exact N. reflexivity. }
        rewrite G. destruct v as [|c v]; [congruence|]. cbn [getline].
        destruct (getline_tok _ (c :: v)) as [tok r']. destruct (set_by_name_done st P n tok W) as (P1 & E & E1). rewrite E.
        destruct (IH P1) as (P' & EP & SP); [eapply wf_set_int; [exact W|apply int_from_is_int|exact E1]|exact F|].
        exists P'. split; [exact EP|]. apply set_int_effect in E1. eapply same_but_int_trans; [apply E1|exact SP].
  - induction ls as [|l ls IH]; intros P W F; [exfalso; apply F; constructor|]. cbn [read_lines].
    destruct l as [|c l].
    + cbn [getline]. apply IH; [exact W|]. intro G. apply F. constructor; [left; reflexivity|exact G].
    + cbn [getline]. pose proof (getline_tok_split ","%char (c :: l)) as T.
      destruct (getline_tok _ (c :: l)) as [n rest]. destruct T as [T1 T2].
      destruct rest as [|c' rest]; [reflexivity|]. cbn [getline]. destruct (getline_tok _ (c' :: rest)) as [tok r'].
      destruct (set_by_name_done st P n tok W) as (P1 & E & E1). rewrite E.
      apply IH; [eapply wf_set_int; [exact W|apply int_from_is_int|exact E1]|].
      intro G. apply F. constructor; [|exact G]. right. exists n, (c' :: rest).
      destruct T2 as [T2|[_ T2]]; [|discriminate]. split; [exact T2|]. split; [exact T1|discriminate].
Qed.
Print Assumptions read_params.

(** So a file that sets DISJ_TERMS does not set it. *)
Example read_params_meets : forall st, exists P',
  readParams st new_params (Some [txt "DISJ_TERMS,64"; []; txt "ROUNDS,5"]) = Done P' /\
  get_int P' DISJ_TERMS = Done 0 /\ get_int P' ROUNDS = Done 1 /\ get_int P' CUTLIMIT = Done 1.
Proof. intro st. eexists. split; [vm_compute; reflexivity|]. split; [|split]; vm_compute; reflexivity. Qed.

(** ** DISJ_OPTIONS: a non-empty list of ints written in decimal with a separator between them is
    appended, in order, to the vector; the status is 0 whatever the number of options. *)
Fixpoint joined (sep : ascii) (ts : list text) : text :=
  match ts with [] => [] | [t] => t | t :: r => t ++ sep :: joined sep r end.

Lemma stoi_numeral s z : numeral s z -> is_int z -> stoi s = Some z.
Proof.
  intros H I. unfold stoi. rewrite (strtol_numeral s z H). unfold clamp, is_int, INT_MIN, INT_MAX, LONG_MIN, LONG_MAX in *.
  destruct (Z.ltb_spec z (- 2 ^ 63)), (Z.ltb_spec (2 ^ 63 - 1) z); try lia. cbn [sl_rest sl_val sl_erange orb].
  destruct (Z.ltb_spec z (- 2 ^ 31)), (Z.ltb_spec (2 ^ 31 - 1) z); try lia. reflexivity.
Qed.
Lemma numeral_ne s z : numeral s z -> s <> [].
Proof. intros (ws & sg & ds & -> & _ & _ & N & _) E. apply app_eq_nil in E. destruct E as [_ E].
  apply app_eq_nil in E. destruct E as [_ E]. contradiction. Qed.
Lemma getline_ne d t r : t <> [] -> ~ In d t -> getline d (t ++ d :: r) = Some (t, r).
Proof. intros N I. unfold getline. destruct (t ++ d :: r) eqn:E; [destruct t; discriminate|]. rewrite <- E, getline_tok_app by exact I. reflexivity. Qed.
Lemma getline_last d t : t <> [] -> ~ In d t -> getline d t = Some (t, []).
Proof.
  intros N I. unfold getline. destruct t as [|c t]; [congruence|]. clear N. f_equal.
  revert c I. induction t as [|c' t IH]; intros c I; cbn [getline_tok].
  - destruct (Ascii.eqb_spec c d) as [->|E]; [exfalso; apply I; left; reflexivity|reflexivity].
  - destruct (Ascii.eqb_spec c d) as [->|E]; [exfalso; apply I; left; reflexivity|].
    cbn [getline_tok] in IH. rewrite IH; [reflexivity|]. intro J. apply I. right. exact J.
Qed.
Lemma options_joined sep ts zs : Forall2 numeral ts zs -> Forall is_int zs -> Forall (fun t => ~ In sep t) ts ->
  forall acc fuel, (length (joined sep ts) < fuel)%nat -> options_loop fuel sep acc (joined sep ts) = Done (acc ++ zs).
Proof.
  induction 1 as [|t z ts zs Hn H IH]; intros Hi Hs acc fuel L.
  - destruct fuel; [inversion L|]. cbn [options_loop joined getline]. rewrite app_nil_r. reflexivity.
  - apply Forall_cons_iff in Hi. destruct Hi as [Iz Hi]. apply Forall_cons_iff in Hs. destruct Hs as [St Hs].
    destruct fuel as [|fuel]; [inversion L|]. destruct ts as [|t' ts].
    + inversion H. subst. cbn [joined options_loop]. rewrite getline_last; [|apply (numeral_ne _ _ Hn)|exact St].
      rewrite (stoi_numeral t z Hn Iz). destruct fuel; reflexivity.
    + change (joined sep (t :: t' :: ts)) with (t ++ sep :: joined sep (t' :: ts)) in *.
      cbn [options_loop]. rewrite getline_ne; [|apply (numeral_ne _ _ Hn)|exact St].
      rewrite (stoi_numeral t z Hn Iz), IH; [rewrite <- app_assoc; reflexivity|exact Hi|exact Hs|].
      rewrite app_length in L. cbn [length] in L. lia.
Qed.

Theorem disj_options : forall st P acc ts zs, reach st P ->
  Forall2 numeral ts zs -> Forall is_int zs -> Forall (fun t => ~ In ":"%char t) ts ->
  get_string P DISJ_OPTIONS = Done (joined ":"%char ts) ->
  parseDisjOptions P ":"%char acc = Done (acc ++ zs, 0).
Proof.
  intros st P acc ts zs R H Hi Hs G. unfold parseDisjOptions. rewrite G.
  destruct (joined ":"%char ts) as [|c s] eqn:E.
  - destruct ts as [|t ts]; [inversion H; rewrite app_nil_r; reflexivity|]. exfalso.
    inversion H as [|? z ? ? N]. apply (numeral_ne _ _ N). destruct ts; cbn [joined] in E; [exact E|].
    apply app_eq_nil in E. apply E.
  - rewrite <- E. rewrite (options_joined _ ts zs H Hi Hs) by lia.
    destruct (parameters_present st P R) as (Pi & _). destruct (Pi MODE) as [m ->], (Pi ROUNDS) as [r ->].
    destruct (_ && _); reflexivity.
Qed.
Print Assumptions disj_options.

(** Refuted: a wrong number of options is documented to return 1; every call that returns returns 0. *)
Theorem disj_options_status_refuted : forall P sep acc opts status,
  parseDisjOptions P sep acc = Done (opts, status) -> status = 0.
Proof.
  intros P sep acc opts status. unfold parseDisjOptions.
  destruct (get_string P DISJ_OPTIONS) as [[|c s]| | |]; try discriminate; [congruence|].
  destruct (options_loop _ _ _ _) as [o| | |]; try discriminate.
  destruct (get_int P MODE) as [m| | |], (get_int P ROUNDS) as [r| | |]; try discriminate.
  destruct (_ && _); congruence.
Qed.
Print Assumptions disj_options_status_refuted.

(** Three options for one round: accepted; a token that is not a number ends the program. *)
Example disj_options_example : exists P Pbad, set_string new_params DISJ_OPTIONS (txt "2:-4:16") = Done P /\
  set_string new_params DISJ_OPTIONS (txt "2:x") = Done Pbad /\
  get_int P ROUNDS = Done 1 /\ parseDisjOptions P ":"%char [7] = Done ([7; 2; -4; 16], 0) /\
  parseDisjOptions Pbad ":"%char [] = Terminated.
Proof. do 2 eexists. split; [vm_compute; reflexivity|]. split; [vm_compute; reflexivity|]. split; [|split]; vm_compute; reflexivity. Qed.
