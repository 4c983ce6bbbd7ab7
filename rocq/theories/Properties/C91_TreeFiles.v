(** C91: the files with drawings of the partial trees (TRACE builds): what they contain after all trees of a run, which options a
    negative TEMP asks for, and when the program ends because of them. *)
From Coq Require Import String.
From Verif Require Import Prelude Model.TextUtil Model.Tolerance Model.EventHandler Model.Names Model.Parameters Model.TreeDrawing Model.Generate Model.PartialTree Model.TreeFiles Proofs.TextP Proofs.NamesP.
From Coq Require Import Lia.
Import ListNotations.
#[local] Open Scope string_scope.
#[local] Open Scope list_scope.
#[local] Open Scope Z_scope.

(** * What should be in the files. *)
(** The trees of a round that are drawn. *)
Definition drawn (r : Z) (j : tree_job) : bool := (j_round j =? r) && use_temp_option (Z.abs (j_temp j)) GEN_TIKZ_STRING.
Definition drawn_in (r : Z) (js : list tree_job) : list tree_job := filter (drawn r) js.
(** The entry of a tree: a title, the figure, the tables, an empty line. *)
Definition entry (name : text) (j : tree_job) : text :=
  txt "## Tree for " ++ name ++ txt " with vpc_depth = " ++ int_text (j_terms j) ++ txt " ##" ++ [newline] ++ j_figure j ++ [newline] ++ j_tables j ++ [newline].
(** A document of its own with the figure as its only content. *)
Definition document (figure : text) : text :=
  txt "% !TEX TS-program = lualatex" ++ [newline] ++ txt "\documentclass[11pt,landscape]{article}" ++ [newline] ++ txt "\usepackage[margin=1in]{geometry}" ++ [newline] ++
  txt "\usepackage[T1]{fontenc}" ++ [newline] ++ txt "\usepackage{caption}" ++ [newline] ++ txt "\usepackage{tikz}" ++ [newline] ++
  txt "\usetikzlibrary{graphs, positioning, fit, quotes}" ++ [newline] ++ txt "\usetikzlibrary{graphdrawing}" ++ [newline] ++ txt "\usegdlibrary{trees}" ++ [newline] ++
  txt "\begin{document}" ++ [newline] ++ figure ++ [newline] ++ txt "\end{document}" ++ [newline].
(** The files of a round, for an instance "dir/inst.ext". *)
Definition file (dir inst : text) (r : Z) (ext : text) : text := dir ++ txt "/" ++ inst ++ txt "-round" ++ int_text r ++ txt "." ++ ext.
Definition appended (old : option text) (new : list text) : option text :=
  match new with [] => old | _ => Some (match old with Some o => o | None => [] end ++ concat new) end.
Definition last_of {A} (l : list A) : option A := match rev l with [] => None | a :: _ => Some a end.

Lemma entry_is name j : aleks_entry name (j_terms j) (j_figure j) (j_tables j) = entry name j. Proof. reflexivity. Qed.
Lemma document_is fig : tex_file fig = document fig.
Proof. reflexivity. Qed.
Lemma stub_is name dir inst ext r : parseFilename name = Parsed dir inst ext -> stub_of name r = dir ++ txt "/" ++ inst ++ txt "-round" ++ int_text r.
Proof. intros E. unfold stub_of. rewrite E. rewrite <- !app_assoc. reflexivity. Qed.
Lemma stub_file name dir inst ext r e : parseFilename name = Parsed dir inst ext -> stub_of name r ++ txt "." ++ e = file dir inst r e.
Proof. intros E. rewrite (stub_is _ _ _ _ _ E). unfold file. rewrite <- !app_assoc. reflexivity. Qed.
Lemma signed_inj t z z' : NameSpec.signed t z -> NameSpec.signed t z' -> z = z'.
Proof.
  intros [(N & F & E)|(u & w & E & (N & F & W) & V)] [(N' & F' & E')|(u' & w' & E' & (N' & F' & W') & V')].
  - congruence.
  - rewrite E' in F. inversion_clear F as [|? ? X _]. cbn in X. lia.
  - rewrite E in F'. inversion_clear F' as [|? ? X _]. cbn in X. lia.
  - rewrite E in E'. injection E' as <-. congruence.
Qed.
Lemma int_text_inj a b : int_text a = int_text b -> a = b.
Proof. intros E. pose proof (int_text_spec a) as S. rewrite E in S. exact (signed_inj _ _ _ S (int_text_spec b)). Qed.
Lemma file_inj dir inst r r' e : file dir inst r e = file dir inst r' e -> r = r'.
Proof.
  unfold file. intros H. apply app_inv_head in H. apply app_inv_head in H. apply app_inv_head in H. apply app_inv_head in H. apply app_inv_tail in H.
  exact (int_text_inj _ _ H).
Qed.
Lemma file_ext dir inst r r' : file dir inst r (txt "aleks") <> file dir inst r' (txt "tex").
Proof. unfold file. intros H. apply (f_equal (@rev ascii)) in H. rewrite !rev_app_distr in H. discriminate H. Qed.
Lemma eqb_same a : text_eqb a a = true. Proof. apply text_eqb_refl. Qed.
Lemma eqb_diff a b : a <> b -> text_eqb a b = false.
Proof. intros N. destruct (text_eqb a b) eqn:E; [|reflexivity]. apply text_eqb_eq in E. contradiction. Qed.

Definition state_after (name dir inst : text) (js : list tree_job) (fs fs' : store) : Prop :=
  (forall r, fs' (file dir inst r (txt "aleks")) = appended (fs (file dir inst r (txt "aleks"))) (map (entry name) (drawn_in r js))) /\
  (forall r, fs' (file dir inst r (txt "tex")) = match last_of (drawn_in r js) with Some j => Some (document (j_figure j)) | None => fs (file dir inst r (txt "tex")) end) /\
  (forall n, (forall r, n <> file dir inst r (txt "aleks") /\ n <> file dir inst r (txt "tex")) -> fs' n = fs n).

Lemma save_step openable name dir inst ext j fs :
  parseFilename name = Parsed dir inst ext -> use_temp_option (Z.abs (j_temp j)) GEN_TIKZ_STRING = true ->
  let a := file dir inst (j_round j) (txt "aleks") in let t := file dir inst (j_round j) (txt "tex") in
  draw_tree openable name j fs =
    if openable a then if openable t then Wrote (overwrite t (document (j_figure j)) (append_to a (entry name j) fs))
                       else Exited (append_to a (entry name j) fs)
    else Exited fs.
Proof.
  intros E U a t. unfold draw_tree. rewrite U. unfold save_tikz.
  destruct (stub_of name (j_round j)) as [|c r] eqn:S.
  - exfalso. rewrite (stub_is _ _ _ _ _ E) in S. destruct dir; discriminate S.
  - rewrite <- S. clear S c r.
    replace (stub_of name (j_round j) ++ txt ".aleks") with a by (unfold a; rewrite <- (stub_file name dir inst ext _ _ E); reflexivity).
    replace (stub_of name (j_round j) ++ txt ".tex") with t by (unfold t; rewrite <- (stub_file name dir inst ext _ _ E); reflexivity).
    cbv zeta. destruct (openable a); cbn [negb]; [|reflexivity]. destruct (openable t); reflexivity.
Qed.

Lemma state_nil name dir inst fs : state_after name dir inst [] fs fs.
Proof. split; [|split]; reflexivity. Qed.

Lemma state_cons name dir inst j js fs fs' :
  use_temp_option (Z.abs (j_temp j)) GEN_TIKZ_STRING = true ->
  state_after name dir inst js (overwrite (file dir inst (j_round j) (txt "tex")) (document (j_figure j)) (append_to (file dir inst (j_round j) (txt "aleks")) (entry name j) fs)) fs' ->
  state_after name dir inst (j :: js) fs fs'.
Proof.
  intros U (A & T & O). split; [|split].
  - intros r. rewrite A. unfold overwrite. rewrite (eqb_diff _ _ (file_ext dir inst r (j_round j))). unfold append_to.
    unfold drawn_in. cbn [filter]. unfold drawn at 2. rewrite U, andb_true_r.
    destruct (Z.eqb_spec (j_round j) r) as [EQ|NE].
    + subst r. rewrite eqb_same. cbn [map]. unfold appended. destruct (map (entry name) (filter (drawn (j_round j)) js)) as [|x l].
      * cbn [concat]. rewrite app_nil_r. reflexivity.
      * cbn [concat]. rewrite <- app_assoc. reflexivity.
    + rewrite eqb_diff; [reflexivity|]. intros H. apply NE. symmetry. exact (file_inj _ _ _ _ _ H).
  - intros r. rewrite T. unfold drawn_in. cbn [filter]. unfold drawn at 2. rewrite U, andb_true_r.
    destruct (Z.eqb_spec (j_round j) r) as [EQ|NE].
    + subst r. unfold last_of. cbn [rev]. destruct (rev (filter (drawn (j_round j)) js)) as [|x l]; cbn [app].
      * unfold overwrite. rewrite eqb_same. reflexivity.
      * reflexivity.
    + destruct (last_of (filter (drawn r) js)); [reflexivity|]. unfold overwrite, append_to. rewrite eqb_diff, eqb_diff; [reflexivity| |].
      * intros H. symmetry in H. exact (file_ext _ _ _ _ H).
      * intros H. apply NE. symmetry. exact (file_inj _ _ _ _ _ H).
  - intros n N. rewrite (O n N). unfold overwrite, append_to. rewrite (eqb_diff _ _ (proj2 (N (j_round j)))), (eqb_diff _ _ (proj1 (N (j_round j)))). reflexivity.
Qed.
Lemma state_skip name dir inst j js fs fs' :
  use_temp_option (Z.abs (j_temp j)) GEN_TIKZ_STRING = false -> state_after name dir inst js fs fs' -> state_after name dir inst (j :: js) fs fs'.
Proof.
  intros U (A & T & O). assert (X : forall r, drawn_in r (j :: js) = drawn_in r js) by (intros r; unfold drawn_in; cbn [filter]; unfold drawn at 1; rewrite U, andb_false_r; reflexivity).
  split; [|split]; [intros r; rewrite X; apply A|intros r; rewrite X; apply T|exact O].
Qed.

(** After any number of trees in any number of rounds: the ".aleks" file of a round has its old text followed by an entry for every
    tree drawn in that round, in order; the ".tex" file of a round has the last of them only; no other file has changed. *)
Theorem files_after openable name dir inst ext js fs fs' :
  parseFilename name = Parsed dir inst ext -> draw_trees openable name js fs = Wrote fs' -> state_after name dir inst js fs fs'.
Proof.
  intros E. revert fs. induction js as [|j js IH]; intros fs H.
  - injection H as <-. apply state_nil.
  - cbn [draw_trees] in H. destruct (use_temp_option (Z.abs (j_temp j)) GEN_TIKZ_STRING) eqn:U.
    + rewrite (save_step openable name dir inst ext j fs E U) in H. destruct (openable _); [|discriminate]. destruct (openable _); [|discriminate].
      apply state_cons; [exact U|]. apply IH, H.
    + unfold draw_tree in H. rewrite U in H. apply state_skip; [exact U|]. apply IH, H.
Qed.
Print Assumptions files_after.

(** The program ends with exit(1) exactly when a file of some tree to be drawn cannot be opened; the files of the trees before are
    complete then, and the text of that tree is in its ".aleks" file if only the ".tex" file cannot be opened. *)
Theorem files_exit openable name dir inst ext js fs :
  parseFilename name = Parsed dir inst ext ->
  (exists fs', draw_trees openable name js fs = Wrote fs' /\
     forall j, In j js -> use_temp_option (Z.abs (j_temp j)) GEN_TIKZ_STRING = true ->
       openable (file dir inst (j_round j) (txt "aleks")) = true /\ openable (file dir inst (j_round j) (txt "tex")) = true) \/
  (exists before j after fs1 fs', js = before ++ j :: after /\ draw_trees openable name before fs = Wrote fs1 /\ draw_trees openable name js fs = Exited fs' /\
     use_temp_option (Z.abs (j_temp j)) GEN_TIKZ_STRING = true /\
     (openable (file dir inst (j_round j) (txt "aleks")) = false /\ fs' = fs1 \/
      openable (file dir inst (j_round j) (txt "aleks")) = true /\ openable (file dir inst (j_round j) (txt "tex")) = false /\
      fs' = append_to (file dir inst (j_round j) (txt "aleks")) (entry name j) fs1)).
Proof.
  intros E. revert fs. induction js as [|j js IH]; intros fs.
  - left. exists fs. split; [reflexivity|intros j []].
  - destruct (use_temp_option (Z.abs (j_temp j)) GEN_TIKZ_STRING) eqn:U.
    + pose proof (save_step openable name dir inst ext j fs E U) as S. cbv zeta in S.
      destruct (openable (file dir inst (j_round j) (txt "aleks"))) eqn:OA.
      * destruct (openable (file dir inst (j_round j) (txt "tex"))) eqn:OT.
        -- match type of S with _ = Wrote ?f => destruct (IH f) as [(fs' & W & P)|(b & j' & a & fs1 & fs' & -> & W & X & U' & P)] end.
           ++ left. exists fs'. split; [cbn [draw_trees]; rewrite S; exact W|]. intros k [<-|K] UK; [split; assumption|exact (P k K UK)].
           ++ right. exists (j :: b), j', a, fs1, fs'. split; [reflexivity|]. split; [cbn [draw_trees]; rewrite S; exact W|].
              split; [cbn [draw_trees app]; rewrite S; exact X|]. split; [exact U'|exact P].
        -- right. exists [], j, js, fs. eexists. split; [reflexivity|]. split; [reflexivity|]. split; [cbn [draw_trees]; rewrite S; reflexivity|].
           split; [exact U|]. right. split; [exact OA|]. split; [exact OT|reflexivity].
      * right. exists [], j, js, fs. eexists. split; [reflexivity|]. split; [reflexivity|]. split; [cbn [draw_trees]; rewrite S; reflexivity|].
        split; [exact U|]. left. split; [exact OA|reflexivity].
    + assert (S : draw_tree openable name j fs = Wrote fs) by (unfold draw_tree; rewrite U; reflexivity).
      destruct (IH fs) as [(fs' & W & P)|(b & j' & a & fs1 & fs' & -> & W & X & U' & P)].
      * left. exists fs'. split; [cbn [draw_trees]; rewrite S; exact W|]. intros k [<-|K] UK; [congruence|exact (P k K UK)].
      * right. exists (j :: b), j', a, fs1, fs'. split; [reflexivity|]. split; [cbn [draw_trees]; rewrite S; exact W|].
        split; [cbn [draw_trees app]; rewrite S; exact X|]. split; [exact U'|exact P].
Qed.
Print Assumptions files_exit.

(** * Two rounds, with two trees in the second. *)
Definition tree (r t : Z) (pic : string) : tree_job := {| j_round := r; j_temp := t; j_terms := 4; j_figure := txt pic; j_tables := [] |}.
Definition ex_jobs : list tree_job := [tree 1 1024 "A"; tree 2 1024 "B"; tree 2 0 "C"; tree 2 (-1024) "D"].
Example files_example :
  parseFilename (txt "d/bm23.mps") = Parsed (txt "d") (txt "bm23") (txt "mps") /\
  (exists fs, draw_trees (fun _ => true) (txt "d/bm23.mps") ex_jobs (fun n => if text_eqb n (txt "d/bm23-round1.aleks") then Some (txt "old") else None) = Wrote fs /\
     fs (txt "d/bm23-round2.tex") = Some (document (txt "D")) /\
     option_map string_of_list_ascii (fs (txt "d/bm23-round1.aleks")) = Some ("old## Tree for d/bm23.mps with vpc_depth = 4 ##" ++ String newline "A" ++ String newline (String newline ""))%string) /\
  (exists fs, draw_trees (fun n => negb (text_eqb n (txt "d/bm23-round2.tex"))) (txt "d/bm23.mps") ex_jobs (fun _ => None) = Exited fs /\ fs (txt "d/bm23-round1.tex") = Some (document (txt "A"))).
Proof. split; [vm_compute; reflexivity|]. split; eexists; (split; [reflexivity|]); repeat (split; [vm_compute; reflexivity|]); vm_compute; reflexivity. Qed.
(** "Every tree of a set has its picture" (mode DISJ_SET_PBB): all trees of a round go to the same ".tex" file. *)
Theorem set_picture_refuted : exists js fs, draw_trees (fun _ => true) (txt "d/bm23.mps") js (fun _ => None) = Wrote fs /\
  map j_round js = [1; 1] /\ map j_figure js = [txt "A"; txt "B"] /\ fs (txt "d/bm23-round1.tex") = Some (document (txt "B")) /\
  forall n, fs n <> Some (document (txt "A")).
Proof.
  eexists [tree 1 1024 "A"; tree 1 1024 "B"], _. split; [reflexivity|]. split; [reflexivity|]. split; [reflexivity|]. split; [vm_compute; reflexivity|].
  intros n. cbv beta delta [overwrite append_to].
  change (j_round (tree 1 1024 "A")) with 1. change (j_round (tree 1 1024 "B")) with 1.
  destruct (text_eqb n (stub_of (txt "d/bm23.mps") 1 ++ txt ".tex")); [vm_compute; discriminate|].
  destruct (text_eqb n (stub_of (txt "d/bm23.mps") 1 ++ txt ".aleks")); [vm_compute; discriminate|discriminate].
Qed.
Print Assumptions set_picture_refuted.

(** * A negative TEMP. *)
Lemma opt_bit s n : 0 <= n -> negb (Z.land s (2 ^ n) =? 0) = Z.testbit s n.
Proof.
  intros N. destruct (Z.testbit s n) eqn:B.
  - destruct (Z.eqb_spec (Z.land s (2 ^ n)) 0) as [E|E]; [|reflexivity]. exfalso. apply (f_equal (fun z => Z.testbit z n)) in E. rewrite Z.land_spec, B, Z.pow2_bits_true, Z.bits_0 in E by lia. discriminate.
  - destruct (Z.eqb_spec (Z.land s (2 ^ n)) 0) as [E|E]; [reflexivity|]. exfalso. apply E. apply Z.bits_inj'. intros k K. rewrite Z.land_spec, Z.bits_0, Z.pow2_bits_eqb by lia.
    destruct (Z.eqb_spec n k) as [EQ|NE]; [rewrite <- EQ, B; reflexivity|apply andb_false_r].
Qed.
Lemma pred_bit t m n : 0 <= m < n -> Z.testbit t m = true -> Z.testbit (t - 1) n = Z.testbit t n.
Proof.
  intros M B.
  assert (X : t / 2 ^ (m + 1) = (t - 1) / 2 ^ (m + 1)).
  { assert (D : t mod 2 ^ (m + 1) <> 0).
    { intros Z0. apply (f_equal (fun z => Z.testbit z m)) in Z0. rewrite Z.mod_pow2_bits_low, B, Z.bits_0 in Z0 by lia. discriminate. }
    assert (P : 0 < 2 ^ (m + 1)) by (apply Z.pow_pos_nonneg; lia).
    pose proof (Z.mod_pos_bound t _ P) as R. pose proof (Z.div_mod t (2 ^ (m + 1)) ltac:(lia)) as DM.
    apply (Z.div_unique_pos (t - 1) (2 ^ (m + 1)) (t / 2 ^ (m + 1)) (t mod 2 ^ (m + 1) - 1)); lia. }
  apply (f_equal (fun z => Z.testbit z (n - (m + 1)))) in X. rewrite !Z.div_pow2_bits in X by lia. replace (n - (m + 1) + (m + 1)) with n in X by lia. symmetry. exact X.
Qed.
(** TEMP may be given a minus sign to leave the objective values out of the drawing; the options are then read from the negative
    number: each of the four sub-options is taken exactly when it was NOT asked for. *)
Theorem negative_flips : forall t o, 0 < t -> use_temp_option t GEN_TIKZ_STRING = true ->
  In o [GEN_TIKZ_STRING_WITH_VPCS; GEN_TIKZ_STRING_WITH_GMICS; GEN_TIKZ_STRING_AND_RETURN; GEN_TIKZ_STRING_AND_EXIT] ->
  use_temp_option (- t) o = negb (use_temp_option t o).
Proof.
  intros t o T G O. unfold use_temp_option in *.
  assert (B : Z.testbit t 10 = true) by (rewrite <- opt_bit by lia; exact G).
  assert (X : exists n, 10 < n /\ temp_value o = 2 ^ n).
  { destruct O as [<-|[<-|[<-|[<-|[]]]]]; [exists 11|exists 12|exists 14|exists 15]; split; try reflexivity; lia. }
  destruct X as (n & N & V). rewrite V, !opt_bit by lia.
  replace (- t) with (Z.lnot (t - 1)) by (unfold Z.lnot; lia). rewrite Z.lnot_spec by lia. f_equal. apply (pred_bit t 10); [lia|exact B].
Qed.
Print Assumptions negative_flips.
(** So with -1024 ("draw the tree, without objective values") a TRACE build stops the generator after the drawing as if a disjunction
    had been found, and with -(1024 + 16384) ("... and return") it exits. *)
Theorem negative_drawing_refuted : forall P d run n kp, get_int P DISJ_TERMS = Done n -> get_int P PARTIAL_BB_KEEP_PRUNED_NODES = Done kp -> 2 <= n ->
  (get_int P TEMP = Done (-1024) -> prepareDisjunction true true P d run = Prepared D_SUCCESS (h_disj (se_state run))) /\
  (get_int P TEMP = Done (- (1024 + 16384)) -> prepareDisjunction true true P d run = PrepExit).
Proof.
  intros P d run n kp A B N. unfold prepareDisjunction. rewrite A, B. split; intros ->; (destruct (Z.ltb_spec n 2); [lia|]); reflexivity.
Qed.
Print Assumptions negative_drawing_refuted.

(** With a negative TEMP the picture does not depend on the printed objective values; the shape is the same. *)
Lemma fold_same {A B} (f g : A -> B -> A) : (forall a b, f a b = g a b) -> forall l a, fold_left f l a = fold_left g l a.
Proof. intros H. induction l as [|b l IH]; intros a; [reflexivity|]. cbn [fold_left]. rewrite H. apply IH. Qed.
Lemma text_no_obj fmt fmt' numNodes z : forall fuel node depth ci loc,
  tikz_text fuel fmt false numNodes z node depth ci loc = tikz_text fuel fmt' false numNodes z node depth ci loc.
Proof.
  induction fuel as [|f IH]; intros; [reflexivity|]. cbn [tikz_text].
  replace (node_text fmt' false z node depth ci loc) with (node_text fmt false z node depth ci loc) by (unfold node_text; destruct (nth_error (z_obj z) node); reflexivity).
  destruct (node_text fmt false z node depth ci loc); [|reflexivity].
  rewrite (fold_same _ (fun (acc : option (text * bool)) (x : nat * slot) =>
               match acc, snd x with
               | None, _ => None
               | Some a, None => Some a
               | Some (str, added), Some (c, l) =>
                   match tikz_text f fmt' false numNodes z c (S depth) (fst x) l with
                   | None => None
                   | Some ct => Some (str ++ (if added then txt "," else txt " -- {") ++ [newline] ++ ct, true)
                   end
               end)); [reflexivity|].
  intros [[s b]|] [k [[c l0]|]]; cbn [snd fst]; [rewrite (IH c)| | |]; reflexivity.
Qed.
Theorem no_values d fmt fmt' temp root_obj : temp < 0 -> tikz_graph d fmt temp root_obj = tikz_graph d fmt' temp root_obj.
Proof.
  intros T. unfold tikz_graph. destruct (tikz_build d root_obj); [|reflexivity]. destruct (nth_error (p_stats d) 0); [|reflexivity].
  destruct (Z.leb_spec 0 temp); [lia|]. apply text_no_obj.
Qed.
Print Assumptions no_values.

(** * The TreePlot text. *)
(** Without the request to save it nothing is written; with it, the text and the tables are added to "FILENAME-Tree.aleks" if that file
    can be opened, and the behaviour is undefined otherwise (the null pointer is written through). *)
Theorem plot_file openable name str tables save fs :
  let f := name ++ txt "-Tree.aleks" in
  (save_plot openable name str tables save fs = Undefined <-> save = true /\ openable f = false) /\
  (forall fs', save_plot openable name str tables save fs = Wrote fs' ->
     (forall n, n <> f \/ save = false -> fs' n = fs n) /\
     (save = true -> fs' f = Some (match fs f with Some o => o | None => [] end ++ str ++ [newline] ++ tables ++ [newline]))) /\
  (forall fs', save_plot openable name str tables save fs <> Exited fs').
Proof.
  intros f. unfold save_plot. fold f. destruct save; cbn [negb].
  - destruct (openable f); cbn [negb].
    + split; [split; [discriminate|intros [_ H]; discriminate H]|]. split; [|discriminate]. intros fs' [= <-]. split.
      * intros n [N|N]; [|discriminate]. unfold append_to. rewrite (eqb_diff _ _ N). reflexivity.
      * intros _. unfold append_to. rewrite eqb_same. reflexivity.
    + split; [split; [intros _; split; reflexivity|reflexivity]|]. split; discriminate.
  - split; [split; [discriminate|intros [H _]; discriminate H]|]. split; [|discriminate]. intros fs' [= <-]. split; [reflexivity|discriminate].
Qed.
Print Assumptions plot_file.

(** The caption of a drawing of three nodes, two of them active. *)
Example caption_example :
  option_map string_of_list_ascii (caption (fun _ => txt "1.500") (fun _ => txt "004")
    {| q_name := txt "bm23.mps"; q_strategy := 4; q_orig := 4; q_terms := -3; q_total := 5; q_active := 2; q_leafs := 3; q_feas := 0; q_inf := 0; q_obj := 3 # 2; q_lb := 0 |}) =
  Some ("\caption{" ++ String newline ("  \detokenize{bm23.mps}: Partial tree (used for cut generation; generated with strategy 004 and 3 leafs)\\" ++ String newline
        ("  Initial objective value: 1.500.\\" ++ String newline ("  Nodes: 5.   Active nodes: 2.   Feasible leafs: 3.   Integer-feasible leafs: 0.   Pruned nodes: 0." ++ String newline ("}" ++ String newline "")))))%string.
Proof. vm_compute. reflexivity. Qed.
