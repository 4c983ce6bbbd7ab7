(** C38: objective values and solutions read from files. *)
From Verif Require Import Prelude Model.TextUtil Spec.TextSpec Proofs.TextP.

(** A line is about [inst] when its part before the first comma is [inst]. *)
Definition about (inst l : text) : Prop :=
  l <> [] /\ no_char ","%char inst /\ (l = inst \/ exists rest, l = inst ++ ","%char :: rest).
(** ... with second field [tok]. *)
Definition field (inst l tok : text) : Prop :=
  no_char ","%char inst /\ no_char ","%char tok /\
  ((tok <> [] /\ l = inst ++ ","%char :: tok) \/ exists rest, l = inst ++ ","%char :: tok ++ ","%char :: rest).

Section Lookup.
  Context {V : Type} (stod : text -> option V).

  Lemma head_about inst l : l <> [] ->
    (text_eqb (fst (getline_tok ","%char l)) inst = true <-> about inst l).
  Proof.
    intro Hl. rewrite text_eqb_eq. split.
    - intros <-. destruct (getline_tok_split ","%char l) as [H1 H2]. split; [exact Hl|]. split; [exact H1|].
      destruct H2 as [H2|[H2 _]]; [right; eauto|left; exact H2].
    - intros (_ & N & [->|(rest & ->)]).
      + rewrite getline_tok_end by exact N. reflexivity.
      + rewrite getline_tok_app by exact N. reflexivity.
  Qed.

  Lemma getline_ne d l : l <> [] -> getline d l = Some (getline_tok d l).
  Proof. destruct l; [congruence|reflexivity]. Qed.

  (** The verdict of one line. *)
  Lemma line_cases inst l r :
    (~ about inst l -> obj_lines stod inst (l :: r) = obj_lines stod inst r) /\
    (forall tok, field inst l tok ->
       obj_lines stod inst (l :: r) = match stod tok with Some v => ObjValue v | None => obj_lines stod inst r end) /\
    (about inst l -> (forall tok, ~ field inst l tok) -> obj_lines stod inst (l :: r) = ObjTerminate).
  Proof.
    cbn [obj_lines]. split; [|split].
    - intro N. destruct l as [|c l]; [reflexivity|]. rewrite getline_ne by discriminate.
      destruct (getline_tok ","%char (c :: l)) as [nm rest] eqn:E.
      destruct (text_eqb nm inst) eqn:T; [|reflexivity]. exfalso. apply N, head_about; [discriminate|]. rewrite E. exact T.
    - intros tok (N1 & N2 & H).
      assert (Hl : l <> []) by (destruct H as [[_ ->]|(rest & ->)]; destruct inst; discriminate).
      rewrite getline_ne by exact Hl. clear Hl.
      destruct H as [[Ht ->]|(rest & ->)].
      + rewrite getline_tok_app by exact N1. rewrite text_eqb_refl. unfold getline. destruct tok as [|t0 tok0]; [congruence|].
        rewrite getline_tok_end by exact N2. reflexivity.
      + rewrite getline_tok_app by exact N1. rewrite text_eqb_refl. unfold getline.
        destruct (tok ++ ","%char :: rest) as [|t0 tk] eqn:Et; [destruct tok; discriminate|]. rewrite <- Et.
        rewrite getline_tok_app by exact N2. reflexivity.
    - intros A NF. destruct A as (Hl & N & H).
      rewrite getline_ne by exact Hl. clear Hl.
      destruct H as [->|(rest & ->)].
      + rewrite getline_tok_end by exact N. rewrite text_eqb_refl. reflexivity.
      + rewrite getline_tok_app by exact N. rewrite text_eqb_refl.
        destruct rest as [|c' rest]; [reflexivity|]. exfalso.
        destruct (getline_tok_split ","%char (c' :: rest)) as [H1 H2].
        apply (NF (fst (getline_tok ","%char (c' :: rest)))). split; [exact N|]. split; [exact H1|].
        destruct H2 as [H2|[H2 _]].
        * right. exists (snd (getline_tok ","%char (c' :: rest))). rewrite <- H2. reflexivity.
        * left. rewrite <- H2. split; [discriminate|reflexivity].
  Qed.

  Lemma field_about inst l tok : field inst l tok -> about inst l.
  Proof.
    intros (N1 & N2 & [[Ht ->]|(rest & ->)]); (split; [destruct inst; discriminate|]); (split; [exact N1|]); right; eauto.
  Qed.
  Lemma field_unique inst l tok tok' : field inst l tok -> field inst l tok' -> tok = tok'.
  Proof.
    assert (K : forall t, field inst l t -> t = fst (getline_tok ","%char (snd (getline_tok ","%char l)))).
    { intros t (N1 & N2 & [[Ht ->]|(rest & ->)]); rewrite getline_tok_app by exact N1; cbn [snd].
      - rewrite getline_tok_end by exact N2. reflexivity.
      - rewrite getline_tok_app by exact N2. reflexivity. }
    intros H H'. rewrite (K _ H), (K _ H'). reflexivity.
  Qed.
  Lemma field_dec inst l : (exists tok, field inst l tok) \/ (forall tok, ~ field inst l tok).
  Proof.
    destruct (text_eqb (fst (getline_tok ","%char l)) inst) eqn:T.
    - apply text_eqb_eq in T. subst inst. destruct (getline_tok_split ","%char l) as [H1 [H2|[H2 _]]].
      + destruct (snd (getline_tok ","%char l)) as [|c rest] eqn:E.
        * right. intros tok (_ & N & H).
          assert (K : forall a, fst (getline_tok ","%char l) ++ [","%char] = fst (getline_tok ","%char l) ++ ","%char :: a -> a = []).
          { intros a Ha. apply app_inv_head in Ha. injection Ha as <-. reflexivity. }
          destruct H as [[Ht H]|(r & H)].
          -- rewrite H2 in H at 1. apply K in H. contradiction.
          -- rewrite H2 in H at 1. apply K in H. destruct tok; discriminate.
        * left. destruct (getline_tok_split ","%char (c :: rest)) as [G1 [G2|[G2 _]]].
          -- exists (fst (getline_tok ","%char (c :: rest))). split; [exact H1|]. split; [exact G1|]. right.
             exists (snd (getline_tok ","%char (c :: rest))). rewrite <- G2. exact H2.
          -- exists (c :: rest). split; [exact H1|]. split; [rewrite G2; exact G1|]. left. split; [discriminate|exact H2].
      + right. intros tok (N1 & _ & H). 
        assert (C : In ","%char l) by (destruct H as [[_ H]|(r & H)]; rewrite H; apply in_or_app; right; left; reflexivity).
        apply N1. rewrite <- H2. exact C.
    - right. intros tok F. apply field_about in F. assert (l <> []) by apply F.
      apply head_about in F; [|assumption]. congruence.
  Qed.
End Lookup.

(** The value returned is that of the first line about the instance whose value can be read; all earlier
    lines about it have a second field that is not a number. *)
Theorem lookup_value : forall {V} (stod : text -> option V) inst ls v,
  obj_lines stod inst ls = ObjValue v <->
  exists pre l post tok, ls = pre ++ l :: post /\ field inst l tok /\ stod tok = Some v /\
    forall l', In l' pre -> about inst l' -> exists tok', field inst l' tok' /\ stod tok' = None.
Proof.
  intros V stod inst ls v. split.
  - induction ls as [|l r IH]; [discriminate|]. intro H.
    destruct (line_cases stod inst l r) as (C1 & C2 & C3).
    assert (REC : obj_lines stod inst r = ObjValue v ->
       (about inst l -> exists tok', field inst l tok' /\ stod tok' = None) ->
       exists pre l0 post tok, l :: r = pre ++ l0 :: post /\ field inst l0 tok /\ stod tok = Some v /\
         forall l', In l' pre -> about inst l' -> exists tok', field inst l' tok' /\ stod tok' = None).
    { intros HR HA. destruct (IH HR) as (pre & l0 & post & tok & E & F & Sv & A).
      exists (l :: pre), l0, post, tok. split; [cbn; congruence|]. split; [exact F|]. split; [exact Sv|].
      intros l' [<-|Hl']; [exact HA|apply A, Hl']. }
    destruct (field_dec inst l) as [(tok & F)|NF].
    + rewrite (C2 tok F) in H. destruct (stod tok) as [w|] eqn:Et.
      * injection H as ->. exists [], l, r, tok. split; [reflexivity|]. split; [exact F|]. split; [exact Et|]. intros l' [].
      * apply REC; [exact H|]. intros _. eauto.
    + destruct (text_eqb (fst (getline_tok ","%char l)) inst) eqn:T.
      * destruct l as [|c l0] eqn:El; [apply REC; [exact H|]; intros (C & _); congruence|].
        rewrite C3 in H; [discriminate|apply head_about; [discriminate|exact T]|exact NF].
      * assert (NA : ~ about inst l).
        { intro A. assert (l <> []) by apply A. apply head_about in A; [congruence|assumption]. }
        rewrite (C1 NA) in H. apply REC; [exact H|tauto].
  - intros (pre & l & post & tok & -> & F & Sv & A). induction pre as [|a pre IH]; cbn [app].
    + rewrite (proj1 (proj2 (line_cases stod inst l post)) tok F), Sv. reflexivity.
    + assert (IH' := IH (fun l' Hl' => A l' (or_intror Hl'))). 
      destruct (text_eqb (fst (getline_tok ","%char a)) inst && negb (text_eqb a [])) eqn:T.
      * apply andb_true_iff in T. destruct T as [T1 T2].
        assert (Ha : a <> []) by (intros ->; discriminate).
        destruct (A a (or_introl eq_refl) (proj1 (head_about inst a Ha) T1)) as (tok' & F' & S').
        rewrite (proj1 (proj2 (line_cases stod inst a _)) tok' F'), S'. exact IH'.
      * rewrite (proj1 (line_cases stod inst a _)); [exact IH'|]. intro Ab.
        assert (Ha : a <> []) by apply Ab. apply (head_about inst a Ha) in Ab. rewrite Ab in T. cbn [andb] in T.
        apply negb_false_iff, text_eqb_eq in T. contradiction.
Qed.
Print Assumptions lookup_value.

(** The default is returned exactly when no line about the instance has a readable value (each has an
    unreadable second field). *)
Theorem lookup_default : forall {V} (stod : text -> option V) inst ls,
  obj_lines stod inst ls = ObjDefault <->
  forall l, In l ls -> about inst l -> exists tok, field inst l tok /\ stod tok = None.
Proof.
  intros V stod inst ls. induction ls as [|l r IH]; [split; [intros _ l []|reflexivity]|].
  destruct (line_cases stod inst l r) as (C1 & C2 & C3).
  destruct (field_dec inst l) as [(tok & F)|NF].
  - rewrite (C2 tok F). destruct (stod tok) as [w|] eqn:Et.
    + split; [discriminate|]. intro H. destruct (H l (or_introl eq_refl) (field_about _ _ _ F)) as (t' & F' & S').
      rewrite (field_unique _ _ _ _ F' F) in S'. congruence.
    + rewrite IH. split.
      * intros H l' [<-|Hl']; [intros _; eauto|apply H, Hl'].
      * intros H l' Hl'. apply H. right. exact Hl'.
  - destruct (text_eqb (fst (getline_tok ","%char l)) inst && negb (text_eqb l [])) eqn:T.
    + apply andb_true_iff in T. destruct T as [T1 T2].
      assert (Hl : l <> []) by (intros ->; discriminate). apply (head_about inst l Hl) in T1.
      rewrite (C3 T1 NF). split; [discriminate|]. intro H.
      destruct (H l (or_introl eq_refl) T1) as (t' & F' & _). exfalso. exact (NF _ F').
    + assert (NA : ~ about inst l).
      { intro Ab. assert (Hl : l <> []) by apply Ab. apply (head_about inst l Hl) in Ab. rewrite Ab in T. cbn [andb] in T.
        apply negb_false_iff, text_eqb_eq in T. contradiction. }
      rewrite (C1 NA), IH. split.
      * intros H l' [<-|Hl']; [contradiction|apply H, Hl'].
      * intros H l' Hl'. apply H. right. exact Hl'.
Qed.
Print Assumptions lookup_default.

(** A file that cannot be opened aborts; an empty file name gives the default; otherwise the stub of the
    instance path is looked up. *)
Theorem lookup_file : forall {V} (stod : text -> option V) opt file full,
  getObjValueFromFile stod [] file full = ObjDefault /\
  (opt <> [] -> getObjValueFromFile stod opt None full = ObjExit) /\
  (forall ls dir inst ext, opt <> [] -> parseFilename full = Parsed dir inst ext ->
     getObjValueFromFile stod opt (Some ls) full = obj_lines stod inst ls).
Proof.
  intros V stod opt file full. split; [reflexivity|]. split.
  - destruct opt; [congruence|reflexivity].
  - intros ls dir inst ext Ho Hp. unfold getObjValueFromFile. rewrite Hp. destruct opt; [congruence|reflexivity].
Qed.
Print Assumptions lookup_file.

(** A line about the instance without a value is meant to be skipped with a warning (the code has a
    handler for it); instead the whole program is terminated, even when a later line has the value. *)
Theorem missing_value_refuted : forall {V} (stod : text -> option V) inst post,
  inst <> [] -> no_char ","%char inst ->
  obj_lines stod inst (inst :: post) = ObjTerminate /\ obj_lines stod inst ((inst ++ [","%char]) :: post) = ObjTerminate.
Proof.
  intros V stod inst post Hi N. split.
  - apply line_cases; [split; [exact Hi|split; [exact N|left; reflexivity]]|].
    intros tok (_ & _ & H). assert (C : In ","%char inst); [|contradiction].
    destruct H as [[_ H]|(r & H)]; rewrite H; apply in_or_app; right; left; reflexivity.
  - apply line_cases; [split; [destruct inst; discriminate|split; [exact N|right; exists []; reflexivity]]|].
    intros tok (_ & _ & [[Ht H]|(r & H)]); apply app_inv_head in H; [injection H as <-; congruence|].
    destruct tok; discriminate.
Qed.
Print Assumptions missing_value_refuted.

(** When the instance path has no extension, lines with an EMPTY name are used. *)
Theorem unnamed_instance_refuted : forall {V} (stod : text -> option V) v,
  stod (txt "5") = Some v ->
  getObjValueFromFile stod (txt "obj.csv") (Some [txt ",5"]) (txt "instance") = ObjValue v.
Proof. intros V stod v H. cbn in *. rewrite H. reflexivity. Qed.
Print Assumptions unnamed_instance_refuted.

(** ** Solutions *)
(** A data line: a variable name and one value separated by a single space (more text may follow after another space). *)
Definition data_line (l tok : text) : Prop :=
  exists name, name <> [] /\ no_char " "%char name /\ hd "x"%char name <> "#"%char /\ hd "x"%char name <> "*"%char /\
    no_char " "%char tok /\ tok <> [] /\
    (l = name ++ " "%char :: tok \/ exists rest, l = name ++ " "%char :: tok ++ " "%char :: rest).
Definition comment_line (l : text) : Prop := l = [] \/ exists r, l = "#"%char :: r \/ l = "*"%char :: r.

Lemma sol_data {V} (zero : V) stod l tok : data_line l tok ->
  sol_line zero stod l = match stod tok with Some v => [v] | None => [] end.
Proof.
  intros (name & N0 & N1 & N2 & N3 & N4 & N5 & H).
  assert (NE : text_eqb tok (txt " ") = false).
  { destruct (text_eqb tok (txt " ")) eqn:E; [|reflexivity]. apply text_eqb_eq in E. subst tok.
    exfalso. apply N4. left. reflexivity. }
  destruct name as [|c name]; [congruence|]. cbn [hd] in N2, N3. apply Ascii.eqb_neq in N2, N3.
  destruct H as [->|(rest & ->)]; cbn [app sol_line]; rewrite N2, N3; cbn [orb]; unfold getline.
  - change (c :: name ++ " "%char :: tok) with ((c :: name) ++ " "%char :: tok). rewrite getline_tok_app by exact N1.
    destruct tok as [|t tok]; [congruence|]. rewrite getline_tok_end by exact N4. rewrite NE. reflexivity.
  - change (c :: name ++ " "%char :: tok ++ " "%char :: rest) with ((c :: name) ++ " "%char :: (tok ++ " "%char :: rest)).
    rewrite getline_tok_app by exact N1. destruct tok as [|t tok]; [congruence|]. cbn [app].
    change (t :: tok ++ " "%char :: rest) with ((t :: tok) ++ " "%char :: rest). rewrite getline_tok_app by exact N4. rewrite NE. reflexivity.
Qed.

(** A file of comment lines and data lines with readable values gives the values in order. *)
Theorem solution_read : forall {V} (zero : V) (stod : text -> option V) ls vs,
  Forall2 (fun l o => match o with
                      | None => comment_line l
                      | Some v => exists tok, data_line l tok /\ stod tok = Some v end) ls vs ->
  getSolFromFile zero stod ls = flat_map (fun o => match o with Some v => [v] | None => [] end) vs.
Proof.
  intros V zero stod ls vs H. induction H as [|l o ls vs Hl H IH]; [reflexivity|].
  cbn [getSolFromFile flat_map]. unfold getSolFromFile in IH. rewrite IH. f_equal. destruct o as [v|].
  - destruct Hl as (tok & D & E). rewrite (sol_data zero stod l tok D), E. reflexivity.
  - destruct Hl as [->|(r & [->| ->])]; reflexivity.
Qed.
Print Assumptions solution_read.

(** Two spaces before the value: the value is read as 0. A name without a value is skipped, shifting the later
    values to the wrong variables. *)
Theorem solution_two_spaces_refuted : forall {V} (zero v : V) (stod : text -> option V),
  stod [] = None -> stod (txt "3") = Some v ->
  getSolFromFile zero stod [txt "x1  3"] = [zero] /\
  getSolFromFile zero stod [txt "x0"; txt "x1 3"] = [v].
Proof.
  intros V zero v stod H1 H2. cbn in *. rewrite H1, H2. split; reflexivity.
Qed.
Print Assumptions solution_two_spaces_refuted.

Example lookup_example :
  let stod := fun t => if fst (parseLong t) then Some (snd (parseLong t)) else None in
  getObjValueFromFile stod (txt "obj.csv") (Some [txt "name,value"; []; txt "bm23,n/a"; txt "bm23,34,opt"; txt "bm23,35"])
    (txt "dir/bm23.mps.gz") = ObjValue 34%Z /\
  getSolFromFile 0%Z stod [txt "# sol"; txt "x0 1"; txt "x1 7 (obj:0)"] = [1%Z; 7%Z] /\
  data_line (txt "x1 7 (obj:0)") (txt "7").
Proof.
  split; [vm_compute; reflexivity|]. split; [vm_compute; reflexivity|].
  exists (txt "x1"). split; [discriminate|]. split; [intros [H|[H|[]]]; discriminate|]. split; [discriminate|]. split; [discriminate|].
  split; [intros [H|[]]; discriminate|]. split; [discriminate|]. right. exists (txt "(obj:0)"). reflexivity.
Qed.
