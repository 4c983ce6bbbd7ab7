(** C36: file name splitting. *)
From Verif Require Import Prelude Model.TextUtil Spec.TextSpec Proofs.TextP.

(** How the parts of a path fit together: directory (or "." when there is no separator), separator,
    stub, dot, extension, archive suffix. *)
Definition joined (full dir inst ext arch : text) : Prop :=
  (arch = [] \/ arch = txt ".gz" \/ arch = txt ".bz2") /\
  ((dir = txt "." /\ full = inst ++ "."%char :: ext ++ arch) \/
   (exists sep, (sep = "/"%char \/ sep = ascii_of_nat 92) /\
                full = dir ++ sep :: inst ++ "."%char :: ext ++ arch)).

(** A proper extension: no dot, not itself an archive suffix. *)
Definition plain_ext (ext : text) : Prop := no_char "."%char ext /\ ext <> txt "gz" /\ ext <> txt "bz2".

Lemma slash_char c : is_slash c = true -> c = "/"%char \/ c = ascii_of_nat 92.
Proof. unfold is_slash. rewrite orb_true_iff, !Ascii.eqb_eq. tauto. Qed.

Lemma split_dir_joined fn ext arch :
  (arch = [] \/ arch = txt ".gz" \/ arch = txt ".bz2") ->
  forall dir inst e,
  match find_last_of is_slash fn with
  | Some k => Parsed (firstn k fn) (skipn (S k) fn) ext
  | None => Parsed (txt ".") fn ext
  end = Parsed dir inst e ->
  e = ext /\ no_slash inst /\ joined (fn ++ "."%char :: ext ++ arch) dir inst ext arch.
Proof.
  intros Ha dir inst e. destruct (find_last_of is_slash fn) as [k|] eqn:E; intro H; injection H as <- <- <-.
  - destruct (find_last_some _ _ _ E) as (c & E1 & E2 & E3 & _). split; [reflexivity|].
    split; [apply no_slash_forall, E3|]. split; [exact Ha|]. right. exists c. split; [apply slash_char, E2|].
    rewrite E1 at 1. rewrite <- app_assoc. reflexivity.
  - split; [reflexivity|]. split; [apply no_slash_forall, find_last_none, E|]. split; [exact Ha|]. left. auto.
Qed.

Lemma dot_char c : is_dot c = true -> c = "."%char.
Proof. unfold is_dot. rewrite Ascii.eqb_eq. tauto. Qed.

(** On success the pieces join back to the path; the stub has no separator; the extension has no dot,
    and no archive suffix was left in front of the end. *)
Theorem filename_join : forall full dir inst ext,
  (Z.of_nat (length full) < 2 ^ 32)%Z ->
  parseFilename full = Parsed dir inst ext ->
  exists arch, joined full dir inst ext arch /\ no_slash inst /\ no_char "."%char ext /\
               (arch = [] -> plain_ext ext).
Proof.
  intros full dir inst ext HL. unfold parseFilename.
  destruct (find_last_of is_dot full) as [d|] eqn:Ed; [|discriminate].
  destruct (find_last_some _ _ _ Ed) as (c & E1 & E2 & E3 & E4). apply dot_char in E2. subst c.
  set (fn := firstn d full) in *. set (ex := skipn (S d) full) in *. clearbody fn ex.
  destruct (text_eqb ex (txt "gz") || text_eqb ex (txt "bz2")) eqn:Ear.
  - apply orb_true_iff in Ear. rewrite !text_eqb_eq in Ear.
    destruct (find_last_of is_dot fn) as [d2|] eqn:Ed2.
    + destruct (find_last_some _ _ _ Ed2) as (c & F1 & F2 & F3 & F4). apply dot_char in F2. subst c.
      assert (Lfn : (length fn < length full)%nat) by (rewrite E1, app_length; cbn; lia).
      cbn [to_unsigned]. rewrite Z.mod_small by lia. rewrite Nat2Z.id.
      destruct (Z.ltb_spec (Z.of_nat d2) (Z.of_nat (length fn))); [|lia]. intro H1.
      set (arch := "."%char :: ex).
      destruct (split_dir_joined (firstn d2 fn) (skipn (S d2) fn) arch) with (dir := dir) (inst := inst) (e := ext)
        as (-> & N & J); [subst arch; destruct Ear as [->| ->]; auto|exact H1|].
      exists arch. split; [|split; [exact N|split; [apply no_dot_forall, F3|subst arch; discriminate]]].
      replace full with (firstn d2 fn ++ "."%char :: skipn (S d2) fn ++ arch); [exact J|].
      rewrite E1. rewrite F1 at 3. subst arch. rewrite <- app_assoc. reflexivity.
    + cbn [to_unsigned]. destruct (Z.ltb_spec (2 ^ 32 - 1) (Z.of_nat (length fn))); [|discriminate].
      exfalso. assert (length fn < length full)%nat by (rewrite E1, app_length; cbn; lia). lia.
  - apply orb_false_iff in Ear. rewrite <- !not_true_iff_false, !text_eqb_eq in Ear. intro H1.
    destruct (split_dir_joined fn ex [] (or_introl eq_refl) _ _ _ H1) as (-> & N & J).
    rewrite app_nil_r in J. rewrite <- E1 in J. exists []. split; [exact J|]. split; [exact N|].
    assert (ND : no_char "."%char ex) by (apply no_dot_forall, E3).
    split; [exact ND|]. intros _. split; [exact ND|tauto].
Qed.
Print Assumptions filename_join.

(** It fails exactly when there is no dot, or only the one of an archive suffix. *)
Theorem filename_failure : forall full,
  (Z.of_nat (length full) < 2 ^ 32)%Z ->
  ((exists e, parseFilename full = ParseErr e) <->
   no_char "."%char full \/
   exists fn, no_char "."%char fn /\ (full = fn ++ txt ".gz" \/ full = fn ++ txt ".bz2")).
Proof.
  intros full HL. unfold parseFilename. split.
  - destruct (find_last_of is_dot full) as [d|] eqn:Ed.
    2:{ intros _. left. apply no_dot_forall, find_last_none, Ed. }
    destruct (find_last_some _ _ _ Ed) as (c & E1 & E2 & E3 & E4). apply dot_char in E2. subst c.
    set (fn := firstn d full) in *. set (ex := skipn (S d) full) in *. clearbody fn ex.
    assert (SD : forall f e, exists a b c', match find_last_of is_slash f with
        | Some k => Parsed (firstn k f) (skipn (S k) f) e | None => Parsed (txt ".") f e end = Parsed a b c').
    { intros f e. destruct (find_last_of is_slash f); eauto. }
    destruct (text_eqb ex (txt "gz") || text_eqb ex (txt "bz2")) eqn:Ear.
    + apply orb_true_iff in Ear. rewrite !text_eqb_eq in Ear.
      assert (Lfn : (length fn < length full)%nat) by (rewrite E1, app_length; cbn; lia).
      destruct (find_last_of is_dot fn) as [d2|] eqn:Ed2; cbn [to_unsigned].
      * destruct (find_last_some _ _ _ Ed2) as (c & F1 & F2 & F3 & F4). rewrite Z.mod_small by lia.
        destruct (Z.ltb_spec (Z.of_nat d2) (Z.of_nat (length fn))); [|lia].
        intros (e & H1). destruct (SD (firstn (Z.to_nat (Z.of_nat d2)) fn) (skipn (S (Z.to_nat (Z.of_nat d2))) fn)) as (a & b & c' & H2). congruence.
      * intros _. right. exists fn. split; [apply no_dot_forall, find_last_none, Ed2|].
        destruct Ear as [->| ->]; [left|right]; exact E1.
    + intros (e & H1). destruct (SD fn ex) as (a & b & c' & H2). congruence.
  - intros [H|(fn & H & H1)].
    + apply no_dot_forall, find_last_none in H. rewrite H. eauto.
    + assert (K : forall ex, Forall (fun c => is_dot c = false) ex -> find_last_of is_dot (fn ++ "."%char :: ex) = Some (length fn))
        by (intros ex Hex; apply find_last_app; [reflexivity|exact Hex]).
      apply no_dot_forall, find_last_none in H.
      assert (LL : (length fn < length full)%nat) by (destruct H1 as [->| ->]; rewrite app_length; cbn; lia).
      destruct H1 as [->| ->].
      * change (txt ".gz") with ("."%char :: txt "gz"). rewrite K by (repeat constructor).
        rewrite firstn_len, skipn_len. rewrite text_eqb_refl. cbn [orb]. rewrite H. cbn [to_unsigned].
        destruct (Z.ltb_spec (2 ^ 32 - 1) (Z.of_nat (length fn))); [lia|eauto].
      * change (txt ".bz2") with ("."%char :: txt "bz2"). rewrite K by (repeat constructor).
        rewrite firstn_len, skipn_len. rewrite text_eqb_refl, orb_true_r. rewrite H. cbn [to_unsigned].
        destruct (Z.ltb_spec (2 ^ 32 - 1) (Z.of_nat (length fn))); [lia|eauto].
Qed.
Print Assumptions filename_failure.

(** Any path whose last component is stub.ext or stub.ext.gz / .bz2 is split into exactly these parts,
    whatever the directory contains. *)
Theorem filename_parts : forall dir sep stub ext arch,
  (Z.of_nat (length dir + length stub + length ext) < 2 ^ 31)%Z ->
  sep = "/"%char \/ sep = ascii_of_nat 92 ->
  no_slash stub -> plain_ext ext ->
  arch = [] \/ arch = txt ".gz" \/ arch = txt ".bz2" ->
  parseFilename (dir ++ sep :: stub ++ "."%char :: ext ++ arch) = Parsed dir stub ext /\
  parseFilename (stub ++ "."%char :: ext ++ arch) = Parsed (txt ".") stub ext.
Proof.
  intros dir sep stub ext arch HL Hsep Hst (X1 & X2 & X3) Har.
  assert (Ss : is_slash sep = true) by (destruct Hsep as [->| ->]; reflexivity).
  assert (NX := proj1 (no_dot_forall ext) X1).
  apply no_slash_forall in Hst.
  (* the core: parsing fn ++ "." ++ ext ++ arch *)
  assert (CORE : forall fn, (Z.of_nat (length fn + length ext) < 2 ^ 31 + 2)%Z ->
     parseFilename (fn ++ "."%char :: ext ++ arch) =
        match find_last_of is_slash fn with
        | Some k => Parsed (firstn k fn) (skipn (S k) fn) ext
        | None => Parsed (txt ".") fn ext end).
  { intros fn Hfn. unfold parseFilename.
    assert (AR : forall z, z = txt "gz" \/ z = txt "bz2" -> forall g, arch = "."%char :: z -> 
       g = parseFilename (fn ++ "."%char :: ext ++ arch) -> 
       g = match find_last_of is_slash fn with
        | Some k => Parsed (firstn k fn) (skipn (S k) fn) ext
        | None => Parsed (txt ".") fn ext end).
    { intros z Hz g -> ->. unfold parseFilename.
      replace (fn ++ "."%char :: ext ++ "."%char :: z) with ((fn ++ "."%char :: ext) ++ "."%char :: z) by (rewrite <- app_assoc; reflexivity).
      rewrite find_last_app; [|reflexivity|destruct Hz as [->| ->]; repeat constructor].
      rewrite firstn_len, skipn_len.
      replace (text_eqb z (txt "gz") || text_eqb z (txt "bz2")) with true by (destruct Hz as [->| ->]; reflexivity).
      rewrite find_last_app by (reflexivity || exact NX). cbn [to_unsigned]. rewrite Z.mod_small by lia. rewrite Nat2Z.id.
      destruct (Z.ltb_spec (Z.of_nat (length fn)) (Z.of_nat (length (fn ++ "."%char :: ext)))) as [_|C];
        [|rewrite app_length in C; cbn [length] in C; lia].
      rewrite firstn_len, skipn_len. reflexivity. }
    destruct Har as [->|[->| ->]].
    - rewrite app_nil_r, find_last_app by (reflexivity || exact NX). rewrite firstn_len, skipn_len.
      replace (text_eqb ext (txt "gz") || text_eqb ext (txt "bz2")) with false; [reflexivity|].
      symmetry. apply orb_false_iff. rewrite <- !not_true_iff_false, !text_eqb_eq. tauto.
    - apply (AR (txt "gz")); [left|..]; reflexivity.
    - apply (AR (txt "bz2")); [right|..]; reflexivity. }
  split.
  - replace (dir ++ sep :: stub ++ "."%char :: ext ++ arch) with ((dir ++ sep :: stub) ++ "."%char :: ext ++ arch) by (rewrite <- app_assoc; reflexivity).
    rewrite CORE by (rewrite app_length; cbn [length]; lia).
    rewrite find_last_app by assumption. rewrite firstn_len, skipn_len. reflexivity.
  - rewrite CORE by lia. rewrite (proj2 (find_last_none is_slash stub) Hst). reflexivity.
Qed.
Print Assumptions filename_parts.

(** When the last component has no extension but a directory has a dot, the "extension" swallows
    part of the path and the reported directory and stub are wrong. *)
Theorem dotted_directory_refuted :
  parseFilename (txt "data.v1/inst") = Parsed (txt ".") (txt "data") (txt "v1/inst").
Proof. vm_compute. reflexivity. Qed.
Print Assumptions dotted_directory_refuted.

Example filename_example :
  parseFilename (txt "/tmp/a.b/bm23_presolved.mps.gz") = Parsed (txt "/tmp/a.b") (txt "bm23_presolved") (txt "mps") /\
  parseFilename (txt "p.lp") = Parsed (txt ".") (txt "p") (txt "lp") /\
  plain_ext (txt "mps") /\ no_slash (txt "bm23_presolved") /\
  parseFilename (txt "foo.gz") = ParseErr (Some (txt "gz")).
Proof.
  split; [vm_compute; reflexivity|]. split; [vm_compute; reflexivity|]. split.
  { split; [|split; discriminate]. apply no_dot_forall. repeat constructor. }
  split; [apply no_slash_forall; repeat constructor|vm_compute; reflexivity].
Qed.
