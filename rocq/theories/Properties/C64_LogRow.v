(** C64: the log file. *)
From Coq Require Import String Lqa Qabs.
From Verif Require Import Prelude Model.LogRow Proofs.ToleranceP Spec.LogSpec Spec.GenSpec Spec.LibrarySpec Model.MainRounds Model.SolverHelper Spec.LPSpec Spec.SolverSpec Properties.C54_ApplyCuts Model.Generate Proofs.GeneratorP Proofs.GenExamples Properties.C17_Bookkeeping Properties.C62_MainRounds Properties.C63_CutStatistics.
#[local] Open Scope Q_scope.
#[local] Open Scope string_scope.

Lemma Forall2_flat_map {A B C D} (R : C -> D -> Prop) (F : A -> list C) (G : B -> list D) : forall l m,
  Forall2 (fun a b => Forall2 R (F a) (G b)) l m -> Forall2 R (flat_map F l) (flat_map G m).
Proof. induction 1; cbn [flat_map]; [constructor|]. apply Forall2_app; assumption. Qed.
Lemma Forall2_params L (l : list (string * field)) (R : forall n f, In (n, f) l -> reads L n f) : Forall2 (reads L) (map fst l) (map snd l).
Proof. induction l as [|[n f] l IH]; [constructor|]. constructor; [apply R; left; reflexivity|]. apply IH. intros ? ? K. apply R. right. exact K. Qed.
Lemma Forall2_table {A B} (P : A -> B -> Prop) (l : list (A * B)) : (forall a b, In (a, b) l -> P a b) -> Forall2 P (map fst l) (map snd l).
Proof. intro R. induction l as [|[n f] l IH]; [constructor|]. constructor; [apply R; left; reflexivity|]. apply IH. intros ? ? K. apply R. right. exact K. Qed.
Lemma Forall2_maps {A B C D} (P : C -> D -> Prop) (f : A -> C) (g : B -> D) l m : Forall2 (fun a b => P (f a) (g b)) l m -> Forall2 P (map f l) (map g m).
Proof. induction 1; cbn [map]; constructor; assumption. Qed.
Lemma some_inj {A} (a b : A) : Some a = Some b -> a = b. Proof. congruence. Qed.
Ltac here := first [left; reflexivity | right; here].
Fixpoint lookup (n : string) (l : list (string * field)) : option field := match l with [] => None | (m, f) :: r => if String.eqb n m then Some f else lookup n r end.
Lemma lookup_reads L n f : lookup n (column L) = Some f -> reads L n f.
Proof.
  intro H. apply Reads_column. induction (column L) as [|[m g] r IH]; [discriminate|]. cbn [lookup] in H. destruct (String.eqb_spec n m) as [->|]; [injection H as ->; left; reflexivity|right; exact (IH H)].
Qed.
Ltac col := apply lookup_reads; lazy beta iota zeta delta [lookup column when some String.eqb Ascii.eqb Bool.eqb].
Ltac block := repeat (apply Forall2_cons; [col; reflexivity|]); try apply Forall2_nil.

Lemma bb_reads L stat s who sm n m : In (stat, s) statistic_of -> In (who, sm) [("REF", l_nocuts L); ("REF+V", l_mycuts L)] -> In (n, m) member_of ->
  reads L (stat ++ " " ++ who ++ " " ++ n) (if l_nobb L then Blank else m (s sm)).
Proof. intros A B C. pose proof (Reads_bb L stat s who sm n m A B C) as K. unfold when in K. destruct (l_nobb L); exact K. Qed.
(** Every row has as many fields as the header has names, and each field shows what the name at its place says. *)
Theorem columns : forall L r, log_row L = Some r -> List.length (l_versions L) = 8%nat ->
  List.length r = List.length (header (map fst (l_params L)) (map fst (l_times L))) /\
  forall i n f, nth_error (header (map fst (l_params L)) (map fst (l_times L))) i = Some n -> nth_error r i = Some f -> reads L n f.
Proof.
  intros L r H V.
  assert (K : Forall2 (reads L) (header (map fst (l_params L)) (map fst (l_times L))) r).
  { unfold log_row in H. destruct (orig_fields _) as [o|] eqn:EO; [|discriminate]. destruct (post_fields _ _ _) as [p|] eqn:EP; [|discriminate].
    destruct (cut_fields _ _) as [c|] eqn:EC; [|discriminate]. destruct (obj_fields _) as [ob|] eqn:EB; [|discriminate]. destruct (fail_fields _) as [fa|] eqn:EF; [|discriminate].
    apply some_inj in H. rewrite <- H. clear H. unfold header.
    apply Forall2_app. { block. }
    apply Forall2_app. { apply Forall2_params. intros. apply Reads_param. assumption. }
    apply Forall2_app.
    { unfold bound_names, bound_fields. destruct (0 <? b_ngmic _)%Z eqn:E; cbn [app]; block;
        (apply Forall2_cons; [col; rewrite E; reflexivity|]; apply Forall2_cons; [col; rewrite E; reflexivity|]; block). }
    apply Forall2_app.
    { unfold gap_names, gap_fields, gap_field. destruct (finite (b_ip _)) eqn:E;
       repeat (apply Forall2_cons; [col; rewrite E; cbn [andb]; reflexivity|]); apply Forall2_nil. }
    apply Forall2_app.
    { unfold bb_names, bb_fields. cbn [flat_map map app].
      repeat match goal with |- Forall2 _ (?n :: _) (_ :: _) => apply Forall2_cons end; try apply Forall2_nil.
      - exact (bb_reads L "FIRST" sm_first "REF" (l_nocuts L) "NODES" _ ltac:(here) ltac:(here) ltac:(here)).
      - exact (bb_reads L "FIRST" sm_first "REF+V" (l_mycuts L) "NODES" _ ltac:(here) ltac:(here) ltac:(here)).
      - exact (bb_reads L "BEST" sm_best "REF" (l_nocuts L) "NODES" _ ltac:(here) ltac:(here) ltac:(here)).
      - exact (bb_reads L "BEST" sm_best "REF+V" (l_mycuts L) "NODES" _ ltac:(here) ltac:(here) ltac:(here)).
      - exact (bb_reads L "FIRST" sm_first "REF" (l_nocuts L) "TIME" _ ltac:(here) ltac:(here) ltac:(here)).
      - exact (bb_reads L "FIRST" sm_first "REF+V" (l_mycuts L) "TIME" _ ltac:(here) ltac:(here) ltac:(here)).
      - exact (bb_reads L "BEST" sm_best "REF" (l_nocuts L) "TIME" _ ltac:(here) ltac:(here) ltac:(here)).
      - exact (bb_reads L "BEST" sm_best "REF+V" (l_mycuts L) "TIME" _ ltac:(here) ltac:(here) ltac:(here)). }
    apply Forall2_app.
    { unfold orig_fields in EO. destruct (density_field _) as [d|] eqn:ED; [|discriminate]. destruct (row_stats _) as [[e bd] a] eqn:ER. apply some_inj in EO. rewrite <- EO. unfold orig_names.
      repeat (apply Forall2_cons; [col; rewrite ?ER; reflexivity|]).
      apply Forall2_cons; [|constructor]. eapply Reads_density; [left; reflexivity|exact ED]. }
    apply Forall2_app.
    { unfold post_fields in EP. destruct (density_field _) as [d|] eqn:ED; [|discriminate]. apply some_inj in EP. rewrite <- EP. unfold post_names. block.
      apply Forall2_cons; [eapply Reads_density; [right; left; reflexivity|exact ED]|]. block. }
    apply Forall2_app. { unfold disj_names, disj_fields. block. }
    apply Forall2_app.
    { unfold cut_fields in EC.
      destruct (if (0 <? ci_num (l_cuts L))%Z then _ else _) as [ts|] eqn:ET; [|discriminate]. apply some_inj in EC. rewrite <- EC. unfold cut_names.
      assert (T : exists f1 f2, ts = [f1; f2] /\ counter (some (ci_num (l_cuts L))) (ci_ntype (l_cuts L)) ONE_SIDED_CUT f1 /\ counter (some (ci_num (l_cuts L))) (ci_ntype (l_cuts L)) OPTIMALITY_CUT f2).
      { unfold counter, some. destruct (0 <? ci_num (l_cuts L))%Z; [destruct (ci_ntype _) as [t|]; [|discriminate]|]; apply some_inj in ET; rewrite <- ET; do 2 eexists; split; try reflexivity; split; try reflexivity; eexists; split; reflexivity. }
      destruct T as (f1 & f2 & -> & T1 & T2). cbn [app]. block.
      apply Forall2_cons; [eapply Reads_type; [left; reflexivity|exact T1]|]. apply Forall2_cons; [eapply Reads_type; [right; left; reflexivity|exact T2]|].
      destruct (0 <? ci_num (l_cuts L))%Z eqn:E1; destruct (0 <? ci_num (l_gmics L))%Z eqn:E2; cbn [app];
       repeat (apply Forall2_cons; [col; rewrite ?E1, ?E2; reflexivity|]); apply Forall2_nil. }
    apply Forall2_app.
    { unfold obj_fields in EB. unfold obj_names.
      destruct (0 <? ci_obj (l_cuts L))%Z eqn:E.
      - destruct (ci_nobj _) as [o1|] eqn:E1; [|discriminate]. destruct (ci_nheur _) as [o2|] eqn:E2; [|discriminate]. destruct (ci_nfailheur _) as [o3|] eqn:E3; [|discriminate]. destruct (ci_nact _) as [o4|] eqn:E4; [|discriminate].
        apply some_inj in EB. rewrite <- EB. apply Forall2_cons; [col; reflexivity|].
        apply Forall2_flat_map. assert (X : forall n h, In (n, h) heur_of -> Forall2 (reads L) ["NUM OBJ " ++ n; "NUM CUTS " ++ n; "NUM FAILS " ++ n; "NUM ACTIVE " ++ n] [strI (o1 h); strI (o2 h); strI (o3 h); strI (o4 h)]).
        { intros n h N. repeat apply Forall2_cons; try apply Forall2_nil; eapply Reads_heur; try exact N; try here; unfold counter, some; rewrite E; eexists; split; try eassumption; reflexivity. }
        unfold heur_names, heurs. repeat (apply Forall2_cons; [apply X; here|]). apply Forall2_nil.
      - apply some_inj in EB. rewrite <- EB. apply Forall2_cons; [col; reflexivity|].
        apply Forall2_flat_map. assert (X : forall n h, In (n, h) heur_of -> Forall2 (reads L) ["NUM OBJ " ++ n; "NUM CUTS " ++ n; "NUM FAILS " ++ n; "NUM ACTIVE " ++ n] [strI 0; strI 0; strI 0; strI 0]).
        { intros n h N. apply Forall2_cons; [eapply (Reads_heur L "NUM OBJ "); [here|exact N|unfold counter, some; rewrite E; reflexivity]|]. apply Forall2_cons; [eapply (Reads_heur L "NUM CUTS "); [here|exact N|unfold counter, some; rewrite E; reflexivity]|].
          apply Forall2_cons; [eapply (Reads_heur L "NUM FAILS "); [here|exact N|unfold counter, some; rewrite E; reflexivity]|]. apply Forall2_cons; [eapply (Reads_heur L "NUM ACTIVE "); [here|exact N|unfold counter, some; rewrite E; reflexivity]|]. apply Forall2_nil. }
        unfold heur_names, heurs. repeat (apply Forall2_cons; [eapply X; here|]). apply Forall2_nil. }
    apply Forall2_app.
    { unfold fail_fields in EF. unfold fail_names, fail_kinds.
      destruct (0 <? ci_fail (l_cuts L))%Z eqn:E; [destruct (ci_nfails _) as [g|] eqn:EG; [|discriminate]|]; apply some_inj in EF; rewrite <- EF; (apply Forall2_cons; [col; reflexivity|]).
      - assert (X : forall n k, In (n, k) fail_of -> reads L n (strI (g k))) by (intros n k N; eapply Reads_fail; [exact N|]; unfold counter, some; rewrite E; exists g; auto).
        cbn [seq map]. repeat (apply Forall2_cons; [apply X; here|]). apply Forall2_nil.
      - assert (X : forall n k, In (n, k) fail_of -> reads L n (strI 0)) by (intros n k N; eapply Reads_fail; [exact N|]; unfold counter, some; rewrite E; reflexivity).
        cbn [seq map]. repeat (apply Forall2_cons; [eapply X; here|]). apply Forall2_nil. }
    apply Forall2_app.
    { assert (S6 : forall n m, In (n, m) member_of -> Forall2 (reads L) ["FIRST REF " ++ n; "FIRST REF+V " ++ n; "BEST REF " ++ n; "BEST REF+V " ++ n; "AVG REF " ++ n; "AVG REF+V " ++ n]
        (let w := fun f => if l_nobb L then Blank else f in [w (m (sm_first (l_nocuts L))); w (m (sm_first (l_mycuts L))); w (m (sm_best (l_nocuts L))); w (m (sm_best (l_mycuts L))); w (m (sm_avg (l_nocuts L))); w (m (sm_avg (l_mycuts L)))])).
      { intros n m N. cbv zeta beta.
        apply Forall2_cons; [exact (bb_reads L "FIRST" sm_first "REF" (l_nocuts L) n m ltac:(here) ltac:(here) N)|].
        apply Forall2_cons; [exact (bb_reads L "FIRST" sm_first "REF+V" (l_mycuts L) n m ltac:(here) ltac:(here) N)|].
        apply Forall2_cons; [exact (bb_reads L "BEST" sm_best "REF" (l_nocuts L) n m ltac:(here) ltac:(here) N)|].
        apply Forall2_cons; [exact (bb_reads L "BEST" sm_best "REF+V" (l_mycuts L) n m ltac:(here) ltac:(here) N)|].
        apply Forall2_cons; [exact (bb_reads L "AVG" sm_avg "REF" (l_nocuts L) n m ltac:(here) ltac:(here) N)|].
        apply Forall2_cons; [exact (bb_reads L "AVG" sm_avg "REF+V" (l_mycuts L) n m ltac:(here) ltac:(here) N)|]. apply Forall2_nil. }
      assert (A1 : forall n m, In (n, m) member_of -> reads L ("ALL REF " ++ n) (if l_nobb L then Blank else RunsF m (sm_vec (l_nocuts L)))).
      { intros n m N. refine (Reads_all L "REF" (l_nocuts L) n m _ ltac:(here) N _). unfold when. destruct (l_nobb L); reflexivity. }
      assert (A2 : forall n m, In (n, m) member_of -> reads L ("ALL REF+V " ++ n) (if l_nobb L then Blank else RunsF m (sm_vec (l_mycuts L)))).
      { intros n m N. refine (Reads_all L "REF+V" (l_mycuts L) n m _ ltac:(here) N _). unfold when. destruct (l_nobb L); reflexivity. }
      unfold full_bb_names, full_bb_fields. destruct (l_nobb L).
      - change (repeat Blank (11 * List.length [l_nocuts L; l_mycuts L] * 4)) with (flat_map (fun _ : bbinfo -> field => [Blank; Blank; Blank; Blank; Blank; Blank]) bb_members ++ map (fun _ : bbinfo -> field => Blank) bb_members ++ map (fun _ : bbinfo -> field => Blank) bb_members)%list.
        apply Forall2_app; [apply Forall2_flat_map; unfold bb_contents, bb_members; repeat (apply Forall2_cons; [eapply S6; here|]); apply Forall2_nil|].
        apply Forall2_app; unfold bb_contents, bb_members; cbn [map].
        + repeat (apply Forall2_cons; [eapply A1; here|]). apply Forall2_nil.
        + repeat (apply Forall2_cons; [eapply A2; here|]). apply Forall2_nil.
      - cbn [flat_map]. rewrite app_nil_r. change bb_contents with (map fst member_of). change bb_members with (map snd member_of).
        apply Forall2_app; [apply Forall2_flat_map; apply Forall2_table; intros n m N; exact (S6 n m N)|].
        apply Forall2_app; apply Forall2_maps; apply Forall2_table; assumption. }
    apply Forall2_app. { apply Forall2_params. intros. apply Reads_timer. assumption. }
    apply Forall2_app.
    { assert (X : forall n t, In (n, t) (version_of L) -> reads L n (TextF t)) by (intros; apply Reads_version; assumption). unfold version_of in X.
      destruct (l_versions L) as [|v1 [|v2 [|v3 [|v4 [|v5 [|v6 [|v7 [|v8 [|? ?]]]]]]]]]; try discriminate V. unfold version_names. cbn [map]. cbn [combine] in X.
      repeat (apply Forall2_cons; [apply X; here|]). apply Forall2_nil. }
    apply Forall2_app. { unfold wrap_names. block. } block. }
  split.
  - clear -K. induction K; cbn [List.length]; congruence.
  - clear H. intros i n f N F. revert i N F. induction K as [|? ? ? ? R _ IH]; intros [|i] N F; try discriminate. + cbn in N, F. injection N as <-. injection F as <-. exact R. + exact (IH i N F).
Qed.
Print Assumptions columns.

(** The eight names of BB INFO occur again in FULL BB INFO and no other name of the program occurs twice; the two columns
    show the same. *)
Definition fixed_names : list string := header [] [].
Theorem duplicate_names :
  (forall n, In n fixed_names -> count_occ string_dec fixed_names n = if in_dec string_dec n bb_names then 2%nat else 1%nat) /\
  forall infos blanks a b, infos = [a; b] -> forall i n f, nth_error bb_names i = Some n -> nth_error (bb_fields infos blanks) i = Some f ->
    exists j, nth_error full_bb_names j = Some n /\ nth_error (full_bb_fields infos blanks) j = Some f.
Proof.
  split.
  - assert (K : forallb (fun n => Nat.eqb (count_occ string_dec fixed_names n) (if in_dec string_dec n bb_names then 2%nat else 1%nat)) fixed_names = true) by (vm_compute; reflexivity).
    rewrite forallb_forall in K. intros n N. apply Nat.eqb_eq, K, N.
  - intros infos blanks a b -> i n f N F.
    do 8 (destruct i as [|i]; [cbn in N; apply some_inj in N; rewrite <- N; destruct blanks; cbn in F; apply some_inj in F; rewrite <- F;
      first [exists 18%nat; split; reflexivity|exists 19%nat; split; reflexivity|exists 20%nat; split; reflexivity|exists 21%nat; split; reflexivity|
             exists 60%nat; split; reflexivity|exists 61%nat; split; reflexivity|exists 62%nat; split; reflexivity|exists 63%nat; split; reflexivity]|]).
    destruct i; discriminate N.
Qed.
Print Assumptions duplicate_names.

(** ** The line of categories. *)
Lemma labels_above : forall (cats : list (string * nat)) (blocks : list (list string)), Forall2 (fun c b => snd c = List.length b /\ (0 < snd c)%nat) cats blocks ->
  List.length (flat_map (fun c => fst c :: repeat "" (snd c - 1)) cats) = List.length (List.concat blocks) /\
  (forall i c, nth_error (flat_map (fun c => fst c :: repeat "" (snd c - 1)) cats) i = Some c -> c <> "" -> exists n b k, nth_error (List.concat blocks) i = Some n /\ In ((c, k), b) (combine cats blocks) /\ hd_error b = Some n) /\
  (forall c b k, In ((c, k), b) (combine cats blocks) -> exists i, nth_error (flat_map (fun c => fst c :: repeat "" (snd c - 1)) cats) i = Some c /\ nth_error (List.concat blocks) i = hd_error b).
Proof.
  induction 1 as [|[c k] b cats blocks [E P] H (IH1 & IH2 & IH3)]; cbn [flat_map List.concat combine fst snd] in *.
  - split; [reflexivity|]. split; [intros i c N; destruct i; discriminate N|intros c b k []].
  - assert (L : List.length (c :: repeat "" (k - 1)) = List.length b) by (cbn [List.length]; rewrite repeat_length; lia).
    destruct b as [|n b]; [cbn in E; lia|]. split; [|split].
    + rewrite !app_length, IH1. lia.
    + intros i d N D. destruct (Nat.lt_ge_cases i (List.length (c :: repeat "" (k - 1)))) as [LT|GE].
      * rewrite nth_error_app1 in N by exact LT. destruct i as [|i].
        -- cbn in N. injection N as <-. exists n, (n :: b), k. split; [reflexivity|]. split; [left; reflexivity|reflexivity].
        -- cbn [nth_error] in N. exfalso. apply D. apply nth_error_In in N. exact (repeat_spec _ _ _ N).
      * rewrite nth_error_app2 in N by exact GE. destruct (IH2 _ _ N D) as (n' & b' & k' & A & B & C). exists n', b', k'. rewrite nth_error_app2 by lia. rewrite <- L.
        split; [exact A|]. split; [right; exact B|exact C].
    + intros d b' k' [K|K].
      * injection K as <- <- <-. exists 0%nat. split; reflexivity.
      * destruct (IH3 d b' k' K) as (i & A & B). exists (List.length (c :: repeat "" (k - 1)) + i)%nat. split.
        -- rewrite nth_error_app2 by lia. replace (_ + i - _)%nat with i by lia. exact A.
        -- rewrite nth_error_app2 by lia. rewrite L. replace (_ + i - _)%nat with i by lia. exact B.
Qed.
(** The line of categories has as many places as the header, and a label stands exactly above the first column of its block. *)
Theorem category_labels : forall params times, params <> [] -> times <> [] ->
  List.length (category_line (List.length params) (List.length times)) = List.length (header params times) /\
  (forall i c, nth_error (category_line (List.length params) (List.length times)) i = Some c -> c <> "" -> In (c, nth_error (header params times) i) (first_column params times)) /\
  (forall c n, In (c, n) (first_column params times) -> exists i, nth_error (category_line (List.length params) (List.length times)) i = Some c /\ nth_error (header params times) i = n).
Proof.
  intros params times P T.
  set (blocks := [["INSTANCE"]; params; bound_names; gap_names; bb_names; orig_names; post_names; disj_names; cut_names; obj_names; fail_names; full_bb_names; times; version_names; wrap_names; ["end"]]).
  assert (E : header params times = List.concat blocks) by reflexivity.
  destruct (labels_above (categories (List.length params) (List.length times)) blocks) as (A & B & C).
  { unfold categories, blocks. destruct params; [congruence|]. destruct times; [congruence|]. repeat (apply Forall2_cons; [split; [reflexivity|cbn; lia]|]). apply Forall2_nil. }
  rewrite E. split; [exact A|]. split.
  - intros i c N D. destruct (B i c N D) as (n & b & k & X & Y & Z). rewrite X, <- Z. unfold categories, blocks in Y. cbn [combine] in Y.
    repeat (destruct Y as [Y|Y]; [injection Y as <- <- <-; first [congruence|unfold first_column; here]|]). destruct Y.
  - intros c n I. unfold first_column in I. cbn [In] in I.
    assert (K : exists b k, In ((c, k), b) (combine (categories (List.length params) (List.length times)) blocks) /\ hd_error b = n).
    { repeat (destruct I as [I|I]; [injection I as <- <-; eexists; eexists; split; [unfold categories, blocks; cbn [combine]; here|reflexivity]|]). destruct I. }
    destruct K as (b & k & K & <-). exact (C c b k K).
Qed.
Print Assumptions category_labels.

(** ** The text of a line. *)
Lemma split_nonempty t : split_commas t <> [].
Proof. destruct t as [|c r]; cbn [split_commas]; [discriminate|]. destruct (Ascii.eqb c ","); [discriminate|]. destruct (split_commas r); discriminate. Qed.
Lemma split_cell c r : ~ In ","%char c -> split_commas (c ++ ","%char :: r)%list = c :: split_commas r.
Proof.
  induction c as [|x c IH]; intro N; [reflexivity|]. cbn [app split_commas]. rewrite IH by (intro K; apply N; right; exact K).
  destruct (Ascii.eqb_spec x ","%char) as [->|]; [exfalso; apply N; left; reflexivity|]. reflexivity.
Qed.
Lemma split_last c : ~ In ","%char c -> split_commas c = [c].
Proof.
  induction c as [|x c IH]; intro N; [reflexivity|]. cbn [split_commas]. rewrite IH by (intro K; apply N; right; exact K).
  destruct (Ascii.eqb_spec x ","%char) as [->|]; [exfalso; apply N; left; reflexivity|]. reflexivity.
Qed.
(** A reader of the line gets the fields, if none contains a comma. *)
Theorem line_readable : forall cells, cells <> [] -> (forall c, In c cells -> ~ In ","%char c) -> split_commas (line cells) = cells.
Proof.
  induction cells as [|c [|d r] IH]; intros NE N; [congruence| |].
  - cbn [line]. apply split_last, N. left. reflexivity.
  - change (line (c :: d :: r)) with (c ++ ","%char :: line (d :: r))%list. rewrite split_cell by (apply N; left; reflexivity).
    rewrite IH; [reflexivity|discriminate|]. intros x X. apply N. right. exact X.
Qed.
Print Assumptions line_readable.
(** The instance name is written as it is: if it has a comma, all columns after it are read one place off. *)
Theorem comma_refuted : forall name rest, (exists a b, name = a ++ ","%char :: b /\ ~ In ","%char a /\ ~ In ","%char b)%list ->
  rest <> [] -> (forall c, In c rest -> ~ In ","%char c) ->
  exists a b, split_commas (line (name :: rest)) = a :: b :: rest.
Proof.
  intros name rest (a & b & -> & A & B) NE N. exists a, b. destruct rest as [|d r]; [congruence|].
  change (line (_ :: d :: r)) with ((a ++ ","%char :: b) ++ ","%char :: line (d :: r))%list. rewrite <- app_assoc. cbn [app]. rewrite split_cell by exact A. rewrite split_cell by exact B.
  rewrite line_readable; [reflexivity|discriminate|exact N].
Qed.
Print Assumptions comma_refuted.
Example line_ex : split_commas (line [list_ascii_of_string "bm23"; list_ascii_of_string ""; list_ascii_of_string "20.57"]) =
  map list_ascii_of_string ["bm23"; ""; "20.57"].
Proof. reflexivity. Qed.

(** ** Gap closed. *)
Lemma finite_iff x : finite x = true <-> Qabs x <= DBL_MAX - EPS7.
Proof. unfold finite. rewrite negb_true_iff. assert (E : 0 < EPS7) by reflexivity. pose proof (isInfinity_iff_l (Qabs x) DBL_MAX EPS7 E) as K. destruct (isInfinity _ _ _); split; intro H; try congruence.
  - destruct K as [K _]. specialize (K eq_refl). exfalso. lra.
  - destruct (Qlt_le_dec (DBL_MAX - EPS7) (Qabs x)) as [L|L]; [|exact L]. apply K in L. discriminate. Qed.
Lemma strQ_small x : -(1000#1) <= x -> x <= 1000 -> strQ x = NumF x.
Proof.
  intros A B. assert (M : 2000 <= DBL_MAX) by (vm_compute; discriminate). assert (E : EPS7 < 1) by reflexivity. assert (E0 : 0 < EPS7) by reflexivity.
  unfold strQ, strD. pose proof (isInfinity_iff_l x DBL_MAX EPS7 E0) as K1. pose proof (isNegInfinity_iff_l x (- DBL_MAX) EPS7 E0) as K2.
  destruct (isInfinity _ _ _); [destruct K1 as [K1 _]; specialize (K1 eq_refl); exfalso; lra|]. destruct (isNegInfinity _ _ _); [destruct K2 as [K2 _]; specialize (K2 eq_refl); exfalso; lra|]. reflexivity.
Qed.
Lemma between_finite a b v : finite a = true -> finite b = true -> a <= v -> v <= b -> finite v = true.
Proof. rewrite !finite_iff. intros A B L U. apply Qabs_Qle_condition in A. apply Qabs_Qle_condition in B. apply Qabs_Qle_condition. destruct A, B. split; lra. Qed.

(** With finite bounds lp < ip, the gap of a bound v is the p with v = lp + p% (ip - lp): between 0 and 100 when v is
    between them, 0 at lp, 100 at ip, and increasing. *)
Definition closed (b : boundinfo) (v p : Q) : Prop := v == b_lp b + p / 100 * (b_ip b - b_lp b).
Theorem gap_closed : forall b v, finite (b_lp b) = true -> finite (b_ip b) = true -> b_lp b < b_ip b -> b_lp b <= v -> v <= b_ip b ->
  exists p, gap_field b v = NumF p /\ closed b v p /\ 0 <= p /\ p <= 100 /\ (p == 0 <-> v == b_lp b) /\ (p == 100 <-> v == b_ip b).
Proof.
  intros b v F1 F2 L V1 V2. set (d := b_ip b - b_lp b). assert (D : 0 < d) by (unfold d; lra).
  exists (100 * (v - b_lp b) / d). assert (ND : ~ d == 0) by lra.
  assert (C : closed b v (100 * (v - b_lp b) / d)) by (unfold closed; fold d; field; exact ND).
  set (p := 100 * (v - b_lp b) / d) in *. assert (PD : p * d == 100 * (v - b_lp b)) by (unfold p; field; exact ND).
  assert (P0 : 0 <= p). { unfold p. apply Qle_shift_div_l; [exact D|]. lra. }
  assert (P1 : p <= 100). { unfold p. apply Qle_shift_div_r; [exact D|]. unfold d. lra. }
  split. { unfold gap_field. rewrite (between_finite _ _ _ F1 F2 V1 V2). unfold ddiv. fold d. destruct (Qeq_bool d 0) eqn:E; [apply Qeq_bool_iff in E; lra|]. apply (strQ_small p); lra. }
  split; [exact C|]. split; [exact P0|]. split; [exact P1|]. split; split; intro E.
  - rewrite E in PD. lra.
  - assert (Z : p * d == 0) by lra. apply Qmult_integral in Z. destruct Z; [assumption|contradiction].
  - rewrite E in PD. unfold d in PD. lra.
  - assert (Z : (p - 100) * d == 0) by (unfold d in *; lra). apply Qmult_integral in Z. destruct Z; [lra|contradiction].
Qed.
Print Assumptions gap_closed.
Lemma closed_mono b v w p q : b_lp b < b_ip b -> closed b v p -> closed b w q -> v <= w -> p <= q.
Proof.
  unfold closed. intros L A B C. assert (K : (p / 100) * (b_ip b - b_lp b) <= (q / 100) * (b_ip b - b_lp b)) by lra.
  apply Qmult_le_r in K; [|lra]. assert (p == p / 100 * 100) by field. assert (q == q / 100 * 100) by field. lra.
Qed.

(** For a run with valid cuts (C62) and [ip] the value of an integer-feasible point: the gaps closed by VPCs, by GMICs and
    by all cuts are numbers between 0 and 100, and all cuts close at least as much as either kind. *)
Theorem gap_of_run : forall g ask env n P v0 s ints x b, (-1 <= g <= 1)%Z -> (forall k i, decisive (lists env) P (ask k i)) -> lp_opt P v0 -> (0 < n)%nat ->
  main_rounds g ask env n 0 (main_start P v0) = Some s -> all_generated_valid ints s -> feasible P x -> integral ints (ncols P) x ->
  b_lp b = v0 -> b_ip b = lp_value P x -> v0 < b_ip b -> finite v0 = true -> finite (b_ip b) = true ->
  s_bvpc s = Some (b_vpc b) -> s_ball s = Some (b_gmicvpc b) ->
  exists pv pa, gap_field b (b_vpc b) = NumF pv /\ gap_field b (b_gmicvpc b) = NumF pa /\ closed b (b_vpc b) pv /\ closed b (b_gmicvpc b) pa /\ 0 <= pv /\ pv <= pa /\ pa <= 100 /\
  (g <> 0%Z -> s_bgmic s = Some (b_gmic b) -> exists pg, gap_field b (b_gmic b) = NumF pg /\ closed b (b_gmic b) pg /\ 0 <= pg /\ pg <= pa).
Proof.
  intros g ask env n P v0 s ints x b GB D O N H AV FX IX B1 B2 LT F1 F2 V1 V2.
  destruct (reported_bounds g ask env n P v0 s GB D O N H) as (vp & al & E1 & E2 & _ & _ & _ & L1 & L2 & G & U). specialize (U ints AV x FX IX).
  rewrite V1 in E1. injection E1 as E1. rewrite V2 in E2. injection E2 as E2. rewrite <- E1 in L1, L2. rewrite <- E2 in L2, U, G. rewrite <- B2 in U. clear E1 E2 vp al.
  rewrite <- B1 in LT, F1, L1.
  destruct (gap_closed b (b_vpc b) F1 F2 LT L1 ltac:(lra)) as (pv & P1 & P2 & P3 & P4 & _).
  destruct (gap_closed b (b_gmicvpc b) F1 F2 LT ltac:(lra) U) as (pa & A1 & A2 & A3 & A4 & _).
  exists pv, pa. do 4 (split; [assumption|]). split; [exact P3|]. split; [exact (closed_mono b _ _ pv pa LT P2 A2 L2)|]. split; [exact A4|].
  intros GZ V3. destruct (G GZ) as (gm & E3 & _ & L3 & L4). rewrite V3 in E3. injection E3 as E3. rewrite <- E3, <- B1 in L3. rewrite <- E3 in L4.
  destruct (gap_closed b (b_gmic b) F1 F2 LT L3 ltac:(lra)) as (pg & G1 & G2 & G3 & G4 & _). exists pg. do 3 (split; [assumption|]). exact (closed_mono b _ _ pg pa LT G2 A2 L4).
Qed.
Print Assumptions gap_of_run.
(** No gap to close: 0/0, shown as "inf". *)
Theorem no_gap_refuted : forall b v, finite v = true -> v == b_lp b -> b_lp b == b_ip b -> gap_field b v = InfF.
Proof.
  intros b v F E1 E2. unfold gap_field. rewrite F. unfold ddiv.
  assert (A : Qeq_bool (b_ip b - b_lp b) 0 = true) by (apply Qeq_bool_iff; lra). assert (B : Qeq_bool (100 * (v - b_lp b)) 0 = true) by (apply Qeq_bool_iff; lra). rewrite A, B. reflexivity.
Qed.
Print Assumptions no_gap_refuted.
Definition bx (lp ip v : Q) : boundinfo := {| b_lp := lp; b_best := DBL_MAX; b_worst := - DBL_MAX; b_root := DBL_MAX; b_ip := ip; b_lpc := DBL_MAX; b_unstr := DBL_MAX; b_gmic := v; b_vpc := v; b_gmicvpc := v;
  b_nroot := 0; b_ngmic := 1; b_nlpc := 0; b_nvpc := 1 |}.
Example gap_ex : gap_fields (bx 20 34 27) = [Blank; NumF (700 # 14); Blank; NumF (700 # 14); NumF (700 # 14)] /\ gap_fields (bx 20 DBL_MAX 27) = [Blank; Blank; Blank; Blank; Blank] /\
  gap_fields (bx 3 3 3) = [Blank; InfF; Blank; InfF; InfF].
Proof. repeat split; vm_compute; reflexivity. Qed.

(** ** The problem. *)
(** The distance to the nearest integer. *)
Theorem frac_is_distance : forall x, (exists k, frac_of x == Qabs (x - inject_Z k)) /\ (forall k, frac_of x <= Qabs (x - inject_Z k)) /\ 0 <= frac_of x /\ frac_of x <= 1 # 2.
Proof.
  intro x. pose proof (Qfloor_le x) as F1. pose proof (Qlt_floor x) as F2. pose proof (Qle_ceiling x) as C1. pose proof (Qceiling_lt x) as C2.
  assert (K : (Qceiling x <= Qfloor x + 1)%Z). { rewrite inject_Z_plus in F2. change (inject_Z 1) with 1 in F2. unfold Z.sub in C2. rewrite inject_Z_plus in C2. change (inject_Z (-(1))) with (-(1)) in C2.
    assert (Q1 : inject_Z (Qceiling x) < inject_Z (Qfloor x + 2)) by (rewrite inject_Z_plus; change (inject_Z 2) with 2; lra). rewrite <- Zlt_Qlt in Q1. lia. }
  assert (KQ : inject_Z (Qceiling x) <= inject_Z (Qfloor x) + 1) by (rewrite Zle_Qle, inject_Z_plus in K; exact K).
  assert (FC : frac_of x <= x - inject_Z (Qfloor x) /\ frac_of x <= inject_Z (Qceiling x) - x /\ (frac_of x = x - inject_Z (Qfloor x) \/ frac_of x = inject_Z (Qceiling x) - x)).
  { unfold frac_of, qmin. destruct (Qltb_reflect (x - inject_Z (Qfloor x)) (inject_Z (Qceiling x) - x)) as [L|L]; [split; [lra|]; split; [lra|left; reflexivity]|split; [lra|]; split; [lra|right; reflexivity]]. }
  destruct FC as (A & B & C). split; [|split; [|split]].
  - destruct C as [C|C]; rewrite C; [exists (Qfloor x); rewrite Qabs_pos by lra; reflexivity|exists (Qceiling x); rewrite Qabs_neg by lra; ring].
  - intro k. destruct (Z.le_gt_cases k (Qfloor x)) as [L|G].
    + rewrite Zle_Qle in L. rewrite Qabs_pos by lra. lra.
    + assert (G' : (Qceiling x <= k)%Z) by lia. rewrite Zle_Qle in G'. rewrite Qabs_neg by lra. lra.
  - destruct C as [C|C]; rewrite C; lra.
  - lra.
Qed.
Print Assumptions frac_is_distance.
Definition cnt {A} (p : A -> bool) (l : list A) : Z := Z.of_nat (List.length (filter p l)).
Definition fractional (c : pcol) : bool := pc_int c && negb (isVal (frac_of (pc_val c)) 0 EPS5).
(** The columns: every column is counted once as continuous, binary or general integer; fractional columns are the integer
    columns with a value at distance at least 1e-5 from the integers, and the extreme distances are theirs (1 and 0 if there
    are none). *)
Theorem column_statistics : forall l, let k := col_stats l in
  k_cont k = cnt (fun c => negb (pc_int c)) l /\ k_bin k = cnt (fun c => pc_int c && pc_bin c) l /\ k_gen k = cnt (fun c => pc_int c && negb (pc_bin c)) l /\
  (k_cont k + k_bin k + k_gen k = Z.of_nat (List.length l))%Z /\
  k_frac k = cnt fractional l /\ k_fixed k = cnt (fun c => isVal (pc_lb c) (pc_ub c) EPS7) l /\
  (forall c, In c l -> fractional c = true -> EPS5 <= frac_of (pc_val c) /\ k_min k <= frac_of (pc_val c) /\ frac_of (pc_val c) <= k_max k) /\
  (k_frac k = 0%Z -> k_min k = 1 /\ k_max k = 0) /\
  ((0 < k_frac k)%Z -> exists c d, In c l /\ In d l /\ fractional c = true /\ fractional d = true /\ k_min k = frac_of (pc_val c) /\ k_max k = frac_of (pc_val d) /\ EPS5 <= k_min k /\ k_min k <= k_max k /\ k_max k <= 1 # 2).
Proof.
  intros l k.
  assert (FG : forall c, fractional c = true -> EPS5 <= frac_of (pc_val c) /\ frac_of (pc_val c) <= 1 # 2).
  { intros c F. unfold fractional in F. apply andb_true_iff in F. destruct F as [_ F]. apply negb_true_iff in F. unfold isVal in F. rewrite Qltb_ge in F.
    destruct (frac_is_distance (pc_val c)) as (_ & _ & A & B). rewrite Qabs_pos in F by lra. split; [lra|exact B]. }
  assert (I : k_cont k = cnt (fun c => negb (pc_int c)) l /\ k_bin k = cnt (fun c => pc_int c && pc_bin c) l /\ k_gen k = cnt (fun c => pc_int c && negb (pc_bin c)) l /\
    k_frac k = cnt fractional l /\ k_fixed k = cnt (fun c => isVal (pc_lb c) (pc_ub c) EPS7) l /\
    (forall c, In c l -> fractional c = true -> k_min k <= frac_of (pc_val c) /\ frac_of (pc_val c) <= k_max k) /\
    ((filter fractional l = [] /\ k_min k = 1 /\ k_max k = 0) \/ exists c d, In c l /\ In d l /\ fractional c = true /\ fractional d = true /\ k_min k = frac_of (pc_val c) /\ k_max k = frac_of (pc_val d))).
  { unfold k, col_stats. clear k. induction l as [|c l IH] using rev_ind.
    - cbn. do 5 (split; [reflexivity|]). split; [intros c []|]. left. auto.
    - rewrite fold_left_app. cbn [fold_left]. set (k := fold_left _ l _) in *. destruct IH as (I1 & I2 & I3 & I4 & I5 & I6 & I7).
      unfold cnt in *. rewrite !filter_app, !app_length. cbn [filter]. unfold col_step.
      assert (FX : (if isVal (pc_lb c) (pc_ub c) EPS7 then k_fixed k + 1 else k_fixed k)%Z = Z.of_nat (List.length (filter (fun c => isVal (pc_lb c) (pc_ub c) EPS7) l) + List.length (if isVal (pc_lb c) (pc_ub c) EPS7 then [c] else []))).
      { destruct (isVal _ _ _); cbn [List.length]; rewrite I5; lia. }
      destruct (pc_int c) eqn:EI; cbn [negb andb].
      + cbn [k_cont k_bin k_gen k_frac k_fixed k_min k_max]. cbn [List.length].
        split; [lia|]. split; [destruct (pc_bin c); cbn [negb List.length]; lia|]. split; [destruct (pc_bin c); cbn [negb List.length]; lia|].
        destruct (isVal (frac_of (pc_val c)) 0 EPS5) eqn:EF; cbn [negb andb List.length].
        * assert (NF : fractional c = false) by (unfold fractional; rewrite EI, EF; reflexivity). rewrite NF. cbn [List.length]. split; [lia|]. split; [exact FX|].
          split; [intros d D F; apply in_app_or in D; destruct D as [D|[<-|[]]]; [exact (I6 d D F)|congruence]|].
          rewrite app_nil_r. destruct I7 as [I7|(d & e & D1 & D2 & D3)]; [left; exact I7|right; exists d, e; split; [apply in_or_app; left; exact D1|]; split; [apply in_or_app; left; exact D2|exact D3]].
        * assert (F : fractional c = true) by (unfold fractional; rewrite EI, EF; reflexivity). destruct (FG c F) as [G1 G2]. assert (E5 : 0 < EPS5) by reflexivity.
          rewrite F. cbn [List.length]. split; [lia|]. split; [exact FX|]. split.
          -- intros d D FD. apply in_app_or in D. destruct D as [D|[<-|[]]].
             ++ destruct (I6 d D FD). destruct (Qltb_reflect (frac_of (pc_val c)) (k_min k)); destruct (Qltb_reflect (k_max k) (frac_of (pc_val c))); split; lra.
             ++ destruct (Qltb_reflect (frac_of (pc_val c)) (k_min k)); destruct (Qltb_reflect (k_max k) (frac_of (pc_val c))); split; lra.
          -- right. destruct I7 as [(_ & M1 & M2)|(d & e & D1 & D2 & D3 & D4 & D5 & D6)].
             ++ rewrite M1, M2. destruct (Qltb_reflect (frac_of (pc_val c)) 1); [|lra]. destruct (Qltb_reflect 0 (frac_of (pc_val c))); [|lra].
                exists c, c. assert (In c (l ++ [c])) by (apply in_or_app; right; left; reflexivity). auto 10.
             ++ assert (IC : In c (l ++ [c])) by (apply in_or_app; right; left; reflexivity). assert (ID : In d (l ++ [c])) by (apply in_or_app; left; exact D1). assert (IE : In e (l ++ [c])) by (apply in_or_app; left; exact D2).
                exists (if Qltb (frac_of (pc_val c)) (k_min k) then c else d), (if Qltb (k_max k) (frac_of (pc_val c)) then c else e).
                destruct (Qltb (frac_of (pc_val c)) (k_min k)); destruct (Qltb (k_max k) (frac_of (pc_val c))); auto 10.
      + cbn [k_cont k_bin k_gen k_frac k_fixed k_min k_max List.length]. assert (NF : fractional c = false) by (unfold fractional; rewrite EI; reflexivity).
        rewrite NF. cbn [List.length]. split; [lia|]. split; [lia|]. split; [lia|]. split; [lia|]. split; [exact FX|].
        split; [intros d D F; apply in_app_or in D; destruct D as [D|[<-|[]]]; [exact (I6 d D F)|congruence]|].
        rewrite app_nil_r. destruct I7 as [I7|(d & e & D1 & D2 & D3)]; [left; exact I7|right; exists d, e; split; [apply in_or_app; left; exact D1|]; split; [apply in_or_app; left; exact D2|exact D3]]. }
  destruct I as (I1 & I2 & I3 & I4 & I5 & I6 & I7).
  split; [exact I1|]. split; [exact I2|]. split; [exact I3|]. split.
  { rewrite I1, I2, I3. unfold cnt. clear. induction l as [|c l IH]; [reflexivity|]. cbn [filter]. destruct (pc_int c), (pc_bin c); cbn [negb andb]; cbn [List.length]; lia. }
  split; [exact I4|]. split; [exact I5|]. split; [intros c C F; split; [exact (proj1 (FG c F))|exact (I6 c C F)]|]. split.
  - intro Z. destruct I7 as [(_ & I7)|(c & d & C & _ & F & _)]; [exact I7|]. rewrite I4 in Z. unfold cnt in Z. exfalso.
    assert (K : In c (filter fractional l)) by (apply filter_In; auto). destruct (filter fractional l); [destruct K|cbn in Z; lia].
  - intro P. destruct I7 as [(Z & _)|(c & d & C & D & F & G & E1 & E2)]; [rewrite I4 in P; unfold cnt in P; rewrite Z in P; cbn in P; lia|].
    exists c, d. do 6 (split; [assumption|]). rewrite E1 at 1. split; [exact (proj1 (FG c F))|]. destruct (I6 c C F) as [_ X]. split; [rewrite E1; exact X|]. rewrite E2. exact (proj2 (FG d G)).
Qed.
Print Assumptions column_statistics.
(** The rows: equalities, and single-variable rows that are not (bounds) and are equalities (assignments). *)
Theorem row_statistics : forall l eq bd as_, row_stats l = (eq, bd, as_) ->
  let e r := isVal (pr_lb r) (pr_ub r) EPS7 in let single r := Nat.eqb (pr_size r) 1 in
  eq = cnt e l /\ bd = cnt (fun r => single r && negb (e r)) l /\ as_ = cnt (fun r => single r && e r) l /\ (bd + as_ = cnt single l)%Z.
Proof.
  intros l eq bd as_ H e single.
  assert (I : eq = cnt e l /\ bd = cnt (fun r => single r && negb (e r)) l /\ as_ = cnt (fun r => single r && e r) l).
  { revert eq bd as_ H. unfold row_stats. induction l as [|r l IH] using rev_ind; intros eq bd as_ H.
    - cbn in H. injection H as <- <- <-. auto.
    - rewrite fold_left_app in H. cbn [fold_left] in H. destruct (fold_left _ l _) as [[e0 b0] a0]. destruct (IH e0 b0 a0 eq_refl) as (I1 & I2 & I3).
      unfold cnt in *. rewrite !filter_app, !app_length. cbn [filter]. fold (e r) in H. fold (single r) in H. destruct (e r), (single r); cbn [negb andb List.length] in *; injection H as <- <- <-; lia. }
  destruct I as (-> & -> & ->). do 3 (split; [reflexivity|]). unfold cnt. clear. induction l as [|r l IH]; [reflexivity|]. cbn [filter]. destruct (single r), (e r); cbn [negb andb List.length]; lia.
Qed.
Print Assumptions row_statistics.
(** The density of a matrix of at least one row and column is the share of its elements; an empty matrix has "inf". *)
Theorem density_share : forall p, let n := (Z.of_nat (List.length (p_rows p)) * Z.of_nat (List.length (p_cols p)))%Z in (n <= NO_SUPPORT)%Z ->
  ((0 < n)%Z -> (0 <= p_elements p <= n)%Z -> exists d, density_field p = Some (NumF d) /\ d * inject_Z n == inject_Z (p_elements p) /\ 0 <= d /\ d <= 1) /\
  (n = 0%Z -> p_elements p = 0%Z -> density_field p = Some InfF).
Proof.
  intros p n N. unfold density_field. fold n. destruct (Z.ltb_spec NO_SUPPORT n); [lia|]. split.
  - intros P E. assert (Q0 : 0 < inject_Z n) by (rewrite <- (Zlt_Qlt 0); exact P). assert (E0 : 0 <= inject_Z (p_elements p)) by (rewrite <- (Zle_Qle 0); lia). assert (E1 : inject_Z (p_elements p) <= inject_Z n) by (rewrite <- Zle_Qle; lia).
    unfold ddiv. destruct (Qeq_bool (inject_Z n) 0) eqn:Z; [apply Qeq_bool_iff in Z; lra|].
    assert (D0 : 0 <= inject_Z (p_elements p) / inject_Z n) by (apply Qle_shift_div_l; lra). assert (D1 : inject_Z (p_elements p) / inject_Z n <= 1) by (apply Qle_shift_div_r; lra).
    exists (inject_Z (p_elements p) / inject_Z n). split; [f_equal; apply strQ_small; lra|]. split; [field; lra|]. auto.
  - intros Z E. rewrite Z, E. reflexivity.
Qed.
Print Assumptions density_share.
(** The product is computed in ints: from 46341 rows and columns on, printing is undefined. *)
Theorem density_overflow_refuted : forall p, (46341 <= Z.of_nat (List.length (p_rows p)))%Z -> (46341 <= Z.of_nat (List.length (p_cols p)))%Z -> density_field p = None.
Proof. intros p A B. unfold density_field. destruct (Z.ltb_spec NO_SUPPORT (Z.of_nat (List.length (p_rows p)) * Z.of_nat (List.length (p_cols p)))); [reflexivity|]. unfold NO_SUPPORT in *. nia. Qed.
Print Assumptions density_overflow_refuted.
Definition px : prob := {| p_rows := [{| pr_lb := 1; pr_ub := 1; pr_size := 1 |}; {| pr_lb := 0; pr_ub := 5; pr_size := 1 |}; {| pr_lb := 2; pr_ub := 2; pr_size := 2 |}];
  p_cols := [{| pc_lb := 0; pc_ub := 1; pc_int := true; pc_bin := true; pc_val := 1 # 4 |}; {| pc_lb := 0; pc_ub := 9; pc_int := true; pc_bin := false; pc_val := 17 # 5 |};
             {| pc_lb := 0; pc_ub := 9; pc_int := false; pc_bin := false; pc_val := 1 # 2 |}; {| pc_lb := 2; pc_ub := 2; pc_int := true; pc_bin := false; pc_val := 2 |}]; p_elements := 4 |}.
Example prob_ex : exists fs, orig_fields px = Some fs /\ match fs with [IntF 3; IntF 4; IntF 2; NumF mn; NumF mx; IntF 2; IntF 1; IntF 1; IntF 1; IntF 2; IntF 1; IntF 1; NumF d] => mn == 1 # 4 /\ mx == 2 # 5 /\ d == 1 # 3 | _ => False end.
Proof. eexists. split; [vm_compute; reflexivity|]. cbv beta iota. repeat split; reflexivity. Qed.

(** ** The cuts. *)
Lemma run_vectors : forall eps rs xg xv xa ig gmics ig' iv, Forall round_ok rs -> run_statistics eps rs xg xv xa ig gmics = Some (ig', iv) ->
  ci_ntype iv <> None /\ ci_nheur iv <> None /\ ci_nobj iv <> None /\ ci_nfailheur iv <> None /\ ci_nfails iv <> None /\ ci_nact iv <> None.
Proof.
  intros eps rs xg xv xa ig gmics ig' iv R H. unfold run_statistics in H. destruct (all_infos eps rs) as [l|] eqn:EL; [|discriminate].
  assert (C : Forall complete l).
  { clear H. revert l EL. induction rs as [|r rs IH]; intros l EL; cbn [all_infos] in EL; [injection EL as <-; constructor|]. inversion_clear R as [|? ? R1 R2].
    destruct (round_info_ok eps r R1) as (i & I1 & I2 & _). rewrite I1 in EL. destruct (all_infos eps rs) as [l'|]; [|discriminate]. injection EL as <-. constructor; [exact I2|]. apply IH; [exact R2|reflexivity]. }
  destruct (merge_sums ci_new l C) as (m & M & _ & _ & _ & _ & _ & _ & N1 & N2 & N3 & N4 & N5 & N6 & _). rewrite M in H. unfold analyzeStrength in H.
  destruct (active_heur _ _ _ _) as [f|]; [|discriminate]. injection H as _ <-. unfold set_activity. cbn [ci_ntype ci_nheur ci_nobj ci_nfailheur ci_nfails ci_nact].
  do 5 (split; [assumption|]). discriminate.
Qed.
(** Whatever the rounds: printing reads no empty vector, so that the row is printed unless a density overflows. *)
Theorem row_printed : forall eps rs xg xv xa ig gmics L, Forall round_ok rs -> run_statistics eps rs xg xv xa ig gmics = Some (l_gmics L, l_cuts L) ->
  density_field (l_orig L) <> None -> density_field (l_post L) <> None -> exists r, log_row L = Some r.
Proof.
  intros eps rs xg xv xa ig gmics L R H D1 D2. destruct (run_vectors _ _ _ _ _ _ _ _ _ R H) as (N1 & N2 & N3 & N4 & N5 & N6).
  unfold log_row, orig_fields, post_fields, cut_fields, obj_fields, fail_fields. destruct (density_field (l_orig L)); [|congruence]. destruct (density_field (l_post L)); [|congruence].
  destruct (row_stats _) as [[? ?] ?]. destruct (ci_ntype _); [|congruence]. destruct (ci_nheur _); [|congruence]. destruct (ci_nobj _); [|congruence]. destruct (ci_nfailheur _); [|congruence]. destruct (ci_nfails _); [|congruence]. destruct (ci_nact _); [|congruence].
  destruct (0 <? ci_num _)%Z; destruct (0 <? ci_obj _)%Z; destruct (0 <? ci_fail _)%Z; eexists; reflexivity.
Qed.
Print Assumptions row_printed.
Lemma vec_some {A} (v : option (A -> Z)) g : v = Some g -> forall x, vec v x = g x. Proof. intros -> x. reflexivity. Qed.
Lemma heurs_all : Permutation.Permutation heurs all_heurs.
Proof. reflexivity. Qed.
(** Then the row says of the cuts of the run how many there are, how many one-sided and objective cuts, and - if an
    objective was tried - for each heuristic how many cuts it made and how many are active; these add up to the number of cuts. *)
Theorem cut_columns : forall eps rs xg xv xa ig gmics ig' iv fs, Forall round_ok rs -> run_statistics eps rs xg xv xa ig gmics = Some (ig', iv) -> cut_fields ig' iv = Some fs ->
  let cs := concat (map round_pool rs) in let hs := concat (map round_heurs rs) in let ts := concat (map round_types rs) in
  firstn 4 fs = [strI (Z.of_nat (List.length rs)); strI (Z.of_nat (List.length cs)); strI (count_type ONE_SIDED_CUT ts); strI (count_type OPTIMALITY_CUT ts)] /\
  ((0 < ci_obj iv)%Z -> exists no nf, obj_fields iv = Some (strI (ci_obj iv) :: flat_map (fun h => [strI (no h); strI (count_heur h hs); strI (nf h); strI (active_labelled xv h cs hs)]) heurs) /\
     Zsum (map (fun h => count_heur h hs) heurs) = Z.of_nat (List.length cs)).
Proof.
  intros eps rs xg xv xa ig gmics ig' iv fs R H F cs hs ts.
  destruct (run_vectors _ _ _ _ _ _ _ _ _ R H) as (N1 & N2 & N3 & N4 & N5 & N6).
  destruct (run_statistics_true eps rs xg xv xa ig gmics R) as (a & b & E & T). rewrite E in H. injection H as -> ->. cbv zeta in T. fold cs hs ts in T.
  destruct T as (T1 & T2 & _ & _ & T3 & T4 & T5 & T6 & _ & _ & _ & T7 & _).
  split.
  - unfold cut_fields in F. destruct (ci_ntype iv) as [t|]; [|congruence]. cbn [vec] in T5. rewrite T1, T2 in F.
    destruct (Z.ltb_spec 0 (Z.of_nat (List.length cs))) as [L|L].
    + apply some_inj in F. rewrite <- F. cbn [app firstn]. rewrite !T5. reflexivity.
    + apply some_inj in F. rewrite <- F. cbn [app firstn]. assert (Z : ts = []) by (destruct ts; [reflexivity|cbn in T4; lia]). rewrite Z. reflexivity.
  - intro P. unfold obj_fields. destruct (Z.ltb_spec 0 (ci_obj iv)); [|lia]. destruct (ci_nheur iv) as [c|]; [|congruence]. destruct (ci_nobj iv) as [o|]; [|congruence]. destruct (ci_nfailheur iv) as [f|]; [|congruence]. destruct (ci_nact iv) as [ac|]; [|congruence].
    cbn [vec] in T6, T7. exists o, f. split.
    + do 2 f_equal. apply flat_map_ext. intro h. rewrite T6, T7. reflexivity.
    + rewrite <- T3. change heurs with all_heurs. apply count_heur_sum.
Qed.
Print Assumptions cut_columns.
(** A run whose only cut is one-sided, found before the time limit stops the objectives: NUM CUTS is 1, but as no objective
    was tried NUM CUTS ONE_SIDED is 0. *)
Definition stopped_run : callans := {| ca_time0 := ca_time0 exo; ca_nfrac := ca_nfrac exo; ca_nfrac_default := ca_nfrac_default exo; ca_optimal := ca_optimal exo; ca_disj := ca_disj exo;
  ca_objcut := ca_objcut exo; ca_objcut_disj := ca_objcut_disj exo; ca_root := ca_root exo; ca_root_ok := ca_root_ok exo; ca_root_fails := ca_root_fails exo; ca_setsize := ca_setsize exo;
  ca_run := fun _ => {| dr_time0 := true; dr_setup_fails := dr_setup_fails exrun; dr_time1 := dr_time1 exrun; dr_best := dr_best exrun; dr_worst := dr_worst exrun; dr_lpopt := dr_lpopt exrun;
    dr_prlp := dr_prlp exrun; dr_prlp_fails := dr_prlp_fails exrun; dr_user := dr_user exrun; dr_target := dr_target exrun; dr_time2 := dr_time2 exrun; dr_solvetime2 := dr_solvetime2 exrun |} |}.
Definition stopped_v : vpc := match generateCuts exE exv [] stopped_run with Some (v, _) => v | None => exv end.
Lemma stopped_round : round_ok (Generated (v_g stopped_v)).
Proof.
  assert (K : exists v c, generateCuts exE exv [] stopped_run = Some (v, c) /\ stopped_v = v).
  { unfold stopped_v. destruct (generateCuts exE exv [] stopped_run) as [[v c]|] eqn:E; [exists v, c; auto|vm_compute in E; discriminate]. }
  destruct K as (v & c & K & ->). apply (call_round exE exv stopped_run v c K); [split; [right; discriminate|reflexivity]|reflexivity].
Qed.
Theorem one_sided_columns_refuted : exists ig iv fs ob, run_statistics EPS7 [Generated (v_g stopped_v)] None None None ci_new None = Some (ig, iv) /\
  cut_fields ig iv = Some fs /\ obj_fields iv = Some ob /\
  nth_error cut_names 1 = Some "NUM CUTS" /\ nth_error fs 1 = Some (IntF 1) /\ nth_error cut_names 2 = Some "NUM ONE SIDED CUTS" /\ nth_error fs 2 = Some (IntF 1) /\
  nth_error obj_names 50 = Some "NUM CUTS ONE_SIDED" /\ nth_error ob 50 = Some (IntF 0).
Proof. eexists. eexists. eexists. eexists. split; [vm_compute; reflexivity|]. split; [vm_compute; reflexivity|]. split; [vm_compute; reflexivity|]. repeat split; vm_compute; reflexivity. Qed.
Print Assumptions one_sided_columns_refuted.
(** A run with cuts of several heuristics and one without: the hypotheses of [cut_columns] are met. *)
Example cut_columns_ex : Forall round_ok [Generated exg2; NoVPC; Generated (v_g stopped_v)] /\
  exists ig iv fs ob, run_statistics EPS7 [Generated exg2; NoVPC; Generated (v_g stopped_v)] None (Some (fun _ => 1)) None ci_new (Some []) = Some (ig, iv) /\
  cut_fields ig iv = Some fs /\ obj_fields iv = Some ob /\ firstn 4 fs = [IntF 3; IntF 4; IntF 2; IntF 0] /\ (0 < ci_obj iv)%Z /\ nth_error ob 50 = Some (IntF 2) /\ nth_error ob 6 = Some (IntF 1).
Proof.
  split. { constructor; [exact (Forall_inv (proj1 run_statistics_ex))|]. constructor; [exact Logic.I|]. constructor; [exact stopped_round|]. constructor. }
  eexists. eexists. eexists. eexists. split; [vm_compute; reflexivity|]. split; [vm_compute; reflexivity|]. split; [vm_compute; reflexivity|]. repeat split; vm_compute; reflexivity.
Qed.

(** ** Branch and bound. *)
(** Runs were asked for but none made (no VPC was found): every column of BB INFO shows 0 nodes and 0 seconds, not blanks. *)
Theorem no_runs_refuted : forall bb_runs mode terms num_gmics, bb_runs <> 0%Z -> terms <> 0%Z ->
  bb_plan bb_runs mode terms 0 num_gmics = None /\ (forall f, In f (bb_fields [sm_new; sm_new] false) -> f = IntF 0 \/ f = NumF 0) /\
  (forall f, In f (bb_fields [sm_new; sm_new] true) -> f = Blank).
Proof.
  intros bb_runs mode terms ng B T. split; [|split].
  - unfold bb_plan, num_bb_runs. destruct (Z.eqb_spec terms 0); [contradiction|]. cbn [orb Z.ltb Z.compare]. rewrite Z.mul_0_r. reflexivity.
  - intros f F. vm_compute in F. repeat (destruct F as [<-|F]; [auto|]). destruct F.
  - intros f F. vm_compute in F. repeat (destruct F as [<-|F]; [auto|]). destruct F.
Qed.
Print Assumptions no_runs_refuted.

(** ** Examples. *)
(** The run [ex_run] of C62 with ip = 3: gaps 6.25, 25 and 25 percent. *)
Definition bE : boundinfo := {| b_lp := 1 # 3; b_best := 1; b_worst := 2; b_root := DBL_MAX; b_ip := 3; b_lpc := DBL_MAX; b_unstr := DBL_MAX; b_gmic := 1; b_vpc := 1 # 2; b_gmicvpc := 1;
  b_nroot := 0; b_ngmic := 1; b_nlpc := 0; b_nvpc := 2 |}.
Example gap_of_run_ex : exists pv pa pg, gap_field bE (b_vpc bE) = NumF pv /\ gap_field bE (b_gmicvpc bE) = NumF pa /\ gap_field bE (b_gmic bE) = NumF pg /\ 0 <= pv /\ pv <= pa /\ pg <= pa /\ pa <= 100 /\ pv == 25 # 4 /\ pa == 25.
Proof.
  destruct ex_run as (s & H & _ & E1 & E2 & E3 & _ & _ & _ & _ & _ & AV).
  assert (FX : feasible exP (fun _ => 3)). { split; [intros j Hj; cbn [exP clo cup above below]; split; [vm_compute; discriminate|apply Qle_refl]|intros i Hi; cbn in Hi; lia]. }
  assert (IX : integral exints (ncols exP) (fun _ => 3)) by (intros j Hj _; exists 3%Z; reflexivity).
  destruct (gap_of_run 1 _ exenv 5 exP (1 # 3) s exints (fun _ => 3) bE ltac:(lia) ex_decisive ex_opt ltac:(lia) H AV FX IX) as (pv & pa & G1 & G2 & C1 & C2 & B1 & B2 & B3 & G);
    try assumption; try reflexivity.
  destruct (G ltac:(discriminate) E2) as (pg & G3 & C3 & B4 & B5). exists pv, pa, pg. do 3 (split; [assumption|]). do 4 (split; [assumption|]).
  unfold closed in C1, C2. cbn [bE b_vpc b_gmicvpc b_lp b_ip] in C1, C2. 
  assert (D1 : pv / 100 * (3 - (1 # 3)) == pv * (2 # 75)) by field. assert (D2 : pa / 100 * (3 - (1 # 3)) == pa * (2 # 75)) by field. rewrite D1 in C1. rewrite D2 in C2. split; lra.
Qed.
Definition Lx : log := {| l_inst := "bm23"; l_params := [("BB_RUNS", IntF 1); ("DISJ_TERMS", IntF 4)]; l_bounds := bE; l_nocuts := sm_new; l_mycuts := sm_new; l_nobb := false; l_orig := px; l_post := px; l_disj := di_new;
  l_gmics := ci_new; l_cuts := match run_statistics EPS7 [Generated exg2] None None None ci_new None with Some (_, iv) => iv | None => ci_new end;
  l_times := [("TOTAL_TIME", NumF 1)]; l_versions := ["v"; "c"; "p"; "g"; "x"; "h"; "m"; "i"]; l_exit := "SUCCESS"; l_end := "now"; l_elapsed := 3 |}.
Definition rx : list field := match log_row Lx with Some r => r | None => [] end.
Lemma rx_row : log_row Lx = Some rx.
Proof. unfold rx. assert (K : match log_row Lx with Some _ => true | None => false end = true) by (vm_compute; reflexivity). destruct (log_row Lx); [reflexivity|discriminate]. Qed.
Example columns_ex : log_row Lx = Some rx /\ List.length rx = List.length (header (map fst (l_params Lx)) (map fst (l_times Lx))) /\
  nth_error (header (map fst (l_params Lx)) (map fst (l_times Lx))) 15 = Some "VPC OBJ" /\ nth_error rx 15 = Some (NumF (1 # 2)) /\ last rx Blank = TextF "DONE".
Proof.
  split; [exact rx_row|]. split; [exact (proj1 (columns Lx rx rx_row eq_refl))|]. split; [vm_compute; reflexivity|]. split; vm_compute; reflexivity.
Qed.
