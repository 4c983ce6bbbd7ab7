(** C81: the table of node statistics can be read. *)
From Coq Require Import String Lqa.
From Verif Require Import Prelude Model.TextUtil Model.Tolerance Model.Names Model.Analysis Model.BBInfo Model.LogRow Model.Report Model.NodeTable
  Spec.TextSpec Spec.NameSpec Spec.ReportSpec Spec.TableSpec Proofs.ToleranceP Proofs.NamesP Properties.C78_Report.
#[local] Open Scope Q_scope.
#[local] Open Scope list_scope.

(** ** Words. *)
Definition solid (w : text) : Prop := w <> [] /\ Forall (fun c => is_space c = false) w.
Lemma words_solid w : Forall (fun c => is_space c = false) w -> forall cur l, words_from cur (w ++ l) = words_from (cur ++ w) l.
Proof.
  induction 1 as [|c w H F IH]; intros cur l; [rewrite app_nil_r; reflexivity|]. cbn [app words_from]. rewrite H, IH, <- app_assoc. reflexivity.
Qed.
Lemma words_blanks k l : words_from [] (blanks k ++ l) = words_from [] l.
Proof. induction k as [|k IH]; [reflexivity|]. exact IH. Qed.
Lemma words_gap k cur l : words_from cur (blanks (S k) ++ l) = flush cur ++ words_from [] l.
Proof. cbn [blanks repeat app words_from is_space Ascii.eqb Bool.eqb orb]. f_equal. apply words_blanks. Qed.
(** A cell: one word, at least one blank behind it. *)
Definition cell_of (w c : text) : Prop := solid w /\ exists a b, c = blanks a ++ w ++ blanks (S b).
Lemma words_cell w c l : cell_of w c -> words_from [] (c ++ l) = w :: words_from [] l.
Proof.
  intros ((N & F) & a & b & ->). rewrite <- !app_assoc, words_blanks, words_solid by exact F. cbn [app]. rewrite words_gap. destruct w; [congruence|reflexivity].
Qed.
Lemma words_line ws cs : Forall2 cell_of ws cs -> words (concat cs ++ NL) = ws.
Proof.
  unfold words. induction 1 as [|w c ws cs H F IH]; [reflexivity|]. cbn [concat]. rewrite <- app_assoc, (words_cell w c) by exact H. rewrite IH. reflexivity.
Qed.
Lemma words_one w c : cell_of w c -> words c = [w].
Proof. intro H. unfold words. rewrite <- (app_nil_r c), (words_cell w c) by exact H. reflexivity. Qed.
Lemma not_nl_blanks k : ~ In nl (blanks k).
Proof. intro H. apply repeat_spec in H. discriminate H. Qed.
Lemma solid_no_nl w : solid w -> ~ In nl w.
Proof. intros [_ F] H. rewrite Forall_forall in F. specialize (F _ H). discriminate F. Qed.
Lemma cell_no_nl w c : cell_of w c -> ~ In nl c.
Proof.
  intros (S & a & b & ->) H. apply in_app_or in H. destruct H as [H|H]; [exact (not_nl_blanks _ H)|]. apply in_app_or in H.
  destruct H as [H|H]; [exact (solid_no_nl _ S H)|exact (not_nl_blanks _ H)].
Qed.
Lemma cells_no_nl ws cs : Forall2 cell_of ws cs -> ~ In nl (concat cs).
Proof.
  induction 1 as [|w c ws cs H F IH]; [exact (fun x => x)|]. cbn [concat]. intro K. apply in_app_or in K. destruct K as [K|K]; [exact (cell_no_nl _ _ H K)|exact (IH K)].
Qed.

(** ** Cells. *)
Lemma solid_digits t z : unsigned t z -> solid t.
Proof.
  intros (N & F & _). split; [exact N|]. rewrite Forall_forall in *. intros c Hc. specialize (F c Hc). unfold is_space.
  destruct (Ascii.eqb_spec c " "%char) as [->|_]; [change (nat_of_ascii " "%char) with 32%nat in F; lia|]. destruct (Ascii.eqb_spec c (ascii_of_nat 10)) as [->|_]; [change (nat_of_ascii (ascii_of_nat 10)) with 10%nat in F; lia|reflexivity].
Qed.
Lemma solid_int z : solid (int_text z).
Proof.
  destruct (int_text_spec z) as [U|(u & w & E & U & _)]; [exact (solid_digits _ _ U)|]. rewrite E. destruct (solid_digits _ _ U) as [_ F].
  split; [discriminate|]. constructor; [reflexivity|exact F].
Qed.
Lemma name_cell_ok w t : solid t -> (List.length t < w)%nat -> cell_of t (name_cell w t).
Proof.
  intros SO L. split; [exact SO|]. exists 0%nat, (w - List.length t - 1)%nat. change (blanks 0) with (@nil ascii). cbn [app]. unfold name_cell, pad.
  rewrite firstn_all2 by lia. rewrite Z.abs_eq, Nat2Z.id by lia. replace (S (w - List.length t - 1))%nat with (w - List.length t)%nat by lia. reflexivity.
Qed.
Lemma name_cell_len w t : (List.length t < w)%nat -> List.length (name_cell w t) = w.
Proof.
  intro L. unfold name_cell, pad. rewrite firstn_all2 by lia. rewrite Z.abs_eq, Nat2Z.id by lia. rewrite app_length. unfold blanks. rewrite repeat_length. lia.
Qed.
Lemma small_int z : (- 10 ^ 8 < z < 10 ^ 8)%Z -> (List.length (int_text z) <= if (z <? 0)%Z then 9 else 8)%nat.
Proof.
  change (10 ^ 8)%Z with 100000000%Z. intro H. unfold int_text. destruct (Z.ltb_spec z 0) as [L|L]; cbn [List.length]; unfold digits.
  - apply le_n_S. apply digits_fuel_length; [|lia]. change (10 ^ Z.of_nat 8)%Z with 100000000%Z. lia.
  - apply digits_fuel_length; [|lia]. change (10 ^ Z.of_nat 8)%Z with 100000000%Z. lia.
Qed.
Lemma signed_cell_ok z : (- 10 ^ 8 < z < 10 ^ 8)%Z -> cell_of (int_text z) (signed_cell WIDTH z) /\ List.length (signed_cell WIDTH z) = WIDTH.
Proof.
  intro H. pose proof (small_int z H) as L. unfold signed_cell, pad. rewrite Z.abs_eq, Nat2Z.id by lia.
  split; [split; [apply solid_int|]|].
  - destruct (z <? 0)%Z; [exists 0%nat|exists 1%nat]; eexists; cbn [blanks repeat app List.length]; rewrite <- ?app_comm_cons; cbn [app]; do 2 f_equal; try reflexivity;
      unfold WIDTH; cbn [List.length]; match goal with |- blanks ?a = _ => replace a with (S (a - 1)) by lia end; reflexivity.
  - rewrite !app_length. unfold blanks. rewrite repeat_length. unfold WIDTH in *. destruct (z <? 0)%Z; cbn [List.length]; lia.
Qed.
Lemma wide_gt t : (List.length t < wide t)%nat.
Proof. unfold wide, WIDTH. destruct (Nat.leb_spec (10 - 1) (List.length t)); lia. Qed.
Lemma narrow_gt t : (List.length t < narrow t)%nat.
Proof. unfold narrow. lia. Qed.
Lemma number_ne t v : number t v -> t <> [].
Proof.
  intros (sg & man & ex & m & e & -> & M & _) E. apply app_eq_nil in E as [_ E]. apply app_eq_nil in E as [E _]. subst man.
  destruct M as [(z & (N & _) & _)|(ip & fp & i & f & E & _)]; [congruence|]. destruct ip; discriminate E.
Qed.

Lemma DBL_big : EPS7 < DBL_MAX.
Proof. vm_compute. reflexivity. Qed.
Lemma fixed_ok F p v : (known v \/ DBL_MAX <= v \/ v <= - DBL_MAX) ->
  (known v -> prints_f F p v /\ (List.length (pf_f F p v) <= 400)%nat /\ ~ In " "%char (pf_f F p v)) ->
  solid (string_fixed F p v) /\ shown_with p v (string_fixed F p v).
Proof.
  intros K C. pose proof EPS7_pos as EP. pose proof DBL_big as DB. unfold string_fixed, shown_with.
  destruct (isInfinity v DBL_MAX EPS7) eqn:E1.
  - apply isInfinity_iff_l in E1; [|exact EP]. split; [split; [discriminate|repeat constructor]|].
    split; [intro KN; exfalso; unfold known in KN; apply Qabs_Qle_condition in KN; lra|]. split; [reflexivity|]. intro. exfalso. lra.
  - assert (N1 : ~ DBL_MAX - EPS7 < v) by (intro H; apply isInfinity_iff_l in H; [congruence|exact EP]).
    destruct (isNegInfinity v (- DBL_MAX) EPS7) eqn:E2.
    + apply isNegInfinity_iff_l in E2; [|exact EP]. split; [split; [discriminate|repeat constructor]|].
      split; [intro KN; exfalso; unfold known in KN; apply Qabs_Qle_condition in KN; lra|]. split; [intro; exfalso; lra|reflexivity].
    + assert (N2 : ~ v < - DBL_MAX + EPS7) by (intro H; apply isNegInfinity_iff_l in H; [congruence|exact EP]).
      assert (KN : known v) by (unfold known; apply Qabs_Qle_condition; split; lra). destruct (C KN) as ((w & N & W) & L & B).
      assert (SE : snprintf 500 (pf_f F p v) = pf_f F p v) by (unfold snprintf; apply firstn_all2; lia). rewrite SE.
      split; [|split; [intros _; exists w; split; assumption|split; intro; exfalso; lra]].
      split; [exact (number_ne _ _ N)|]. apply Forall_forall. intros c Hc. unfold is_space.
      destruct (Ascii.eqb_spec c " "%char) as [->|_]; [contradiction|]. destruct (Ascii.eqb_spec c (ascii_of_nat 10)) as [->|_]; [|reflexivity].
      destruct (number_no_nl _ _ N Hc).
Qed.

(** ** Lines. *)
Definition row_words (F : clib) (r : nrow) : list text :=
  [int_text (nr_id r); int_text (nr_parent r); int_text (nr_depth r); int_text (nr_var r); int_text (nr_branch r);
   (if (nr_way r <=? 0)%Z then txt "down" else txt "up"); string_fixed F 3 (nr_obj r); string_fixed F 3 (nr_value r);
   string_fixed F 0 (nr_lb r); string_fixed F 0 (nr_ub r); int_text (nr_orig r); int_text (nr_number r); string_fixed F 3 (nr_intobj r);
   int_text (if nr_found r then 1 else 0); nr_status r].
Definition row_widths (F : clib) (r : nrow) : list nat :=
  [WIDTH; WIDTH; WIDTH; WIDTH; WIDTH; WIDTH; wide (string_fixed F 3 (nr_obj r)); wide (string_fixed F 3 (nr_value r));
   narrow (string_fixed F 0 (nr_lb r)); narrow (string_fixed F 0 (nr_ub r)); WIDTH; WIDTH; wide (string_fixed F 3 (nr_intobj r)); WIDTH; WIDTH].
Lemma status_ok t : In t (map txt ["normal"; "infeas"; "bound"; "integ"; "unknown"]%string) -> solid t /\ (List.length t < WIDTH)%nat.
Proof. intros [<-|[<-|[<-|[<-|[<-|[]]]]]]; (split; [split; [discriminate|repeat constructor]|vm_compute; lia]). Qed.
Lemma row_cells F r : printable F r -> exists cs, (forall b, table_row F r b = concat cs ++ (if b then pad (Z.of_nat WIDTH) (nr_bounds r) else []) ++ NL) /\
  Forall2 cell_of (row_words F r) cs /\ map (@List.length ascii) cs = row_widths F r.
Proof.
  intros (PI & PD & PS). destruct (status_ok _ PS) as [S1 S2].
  assert (FX : forall p v, In (p, v) (doubles_of r) -> solid (string_fixed F p v)) by (intros p v H; destruct (PD p v H) as [A B]; exact (proj1 (fixed_ok F p v A B))).
  assert (FI : forall z, In z (ints_in r) -> cell_of (int_text z) (signed_cell WIDTH z) /\ List.length (signed_cell WIDTH z) = WIDTH) by (intros z H; apply signed_cell_ok, PI, H).
  assert (FF : cell_of (int_text (if nr_found r then 1 else 0)) (signed_cell WIDTH (if nr_found r then 1 else 0)) /\ List.length (signed_cell WIDTH (if nr_found r then 1 else 0)) = WIDTH)
    by (apply signed_cell_ok; destruct (nr_found r); lia).
  assert (FW : cell_of (if (nr_way r <=? 0)%Z then txt "down" else txt "up") (name_cell WIDTH (if (nr_way r <=? 0)%Z then txt "down" else txt "up")))
    by (destruct (nr_way r <=? 0)%Z; apply name_cell_ok; try (split; [discriminate|repeat constructor]); vm_compute; lia).
  eexists. split; [intro b; unfold table_row; cbv zeta; reflexivity|]. unfold row_words, row_widths. split.
  - repeat apply Forall2_cons; try apply Forall2_nil; try (apply FI; unfold ints_in; cbn [In]; tauto); try exact (proj1 FF); try exact FW;
      try (apply name_cell_ok; [exact S1|exact S2]);
      (apply name_cell_ok; [apply FX; unfold doubles_of; cbn [In]; tauto|first [apply wide_gt|apply narrow_gt]]).
  - cbn [map]. rewrite !(fun z H => proj2 (FI z H)) by (unfold ints_in; cbn [In]; tauto). rewrite (proj2 FF).
    rewrite !name_cell_len; try reflexivity; try exact S2; try apply wide_gt; try apply narrow_gt. destruct (nr_way r <=? 0)%Z; vm_compute; lia.
Qed.
Lemma header_cells F r : exists cs, (forall b, table_header F r b = concat cs ++ (if b then name_cell WIDTH (txt "bounds") else []) ++ NL) /\
  (printable F r -> Forall2 cell_of titles cs /\ map (@List.length ascii) cs = row_widths F r).
Proof.
  eexists. split; [intro b; unfold table_header; cbv zeta; reflexivity|]. intros (PI & PD & PS).
  assert (FX : forall p v, In (p, v) (doubles_of r) -> solid (string_fixed F p v)) by (intros p v H; destruct (PD p v H) as [A B]; exact (proj1 (fixed_ok F p v A B))).
  assert (W : forall t, (10 <= wide t)%nat) by (intro t; unfold wide, WIDTH; destruct (Nat.leb_spec (10 - 1) (List.length t)); lia).
  assert (NW : forall t, solid t -> (3 <= narrow t)%nat) by (intros t [N _]; unfold narrow; destruct t; [congruence|cbn [List.length]; lia]).
  assert (L1 : (3 <= narrow (string_fixed F 0 (nr_lb r)))%nat) by (apply NW, FX; unfold doubles_of; cbn [In]; tauto).
  assert (L2 : (3 <= narrow (string_fixed F 0 (nr_ub r)))%nat) by (apply NW, FX; unfold doubles_of; cbn [In]; tauto).
  pose proof (W (string_fixed F 3 (nr_obj r))) as W1. pose proof (W (string_fixed F 3 (nr_value r))) as W2. pose proof (W (string_fixed F 3 (nr_intobj r))) as W3.
  unfold titles, row_widths. cbn [map].
  set (ow := wide (string_fixed F 3 (nr_obj r))) in *. set (vw := wide (string_fixed F 3 (nr_value r))) in *. set (iw := wide (string_fixed F 3 (nr_intobj r))) in *.
  set (lw := narrow (string_fixed F 0 (nr_lb r))) in *. set (uw := narrow (string_fixed F 0 (nr_ub r))) in *. unfold WIDTH. split.
  - repeat apply Forall2_cons; try apply Forall2_nil; (apply name_cell_ok; [split; [discriminate|repeat constructor]|cbn [txt String.list_ascii_of_string List.length]; lia]).
  - rewrite !name_cell_len by (cbn [txt String.list_ascii_of_string List.length]; lia). reflexivity.
Qed.

Lemma row_says F r : printable F r -> Forall2 (fun P t => P t) (says r) (row_words F r).
Proof.
  intros (PI & PD & PS). assert (FX : forall p v, In (p, v) (doubles_of r) -> shown_with p v (string_fixed F p v)) by (intros p v H; destruct (PD p v H) as [A B]; exact (proj2 (fixed_ok F p v A B))).
  unfold says, row_words. repeat apply Forall2_cons; try apply Forall2_nil; try apply int_text_spec; try (apply FX; unfold doubles_of; cbn [In]; tauto); [|reflexivity].
  destruct (Z.leb_spec (nr_way r) 0) as [L|L]; [left|right]; (split; [reflexivity|exact L]).
Qed.

(** The table without bounds: a header and one line per node, each ended by its only newline.  The words of the header are the
    titles; the words of a line say what the titles announce, one each. *)
Theorem node_table_reads : forall F rs, rs <> [] -> (forall r, In r rs -> printable F r) ->
  exists header lines, node_table F rs false = concat (header :: lines) /\ words header = titles /\ Forall2 reads_as rs lines /\
    forall l, In l (header :: lines) -> exists u, l = u ++ [nl] /\ ~ In nl u.
Proof.
  intros F rs NE P. destruct rs as [|r0 rs]; [congruence|].
  destruct (header_cells F r0) as (hc & EH & HH). destruct (HH (P r0 (or_introl eq_refl))) as [HC _].
  exists (table_header F r0 false), (map (fun r => table_row F r false) (r0 :: rs)). split; [reflexivity|].
  split; [rewrite EH; cbn [app]; apply words_line, HC|].
  assert (ROW : forall r, printable F r -> reads_as r (table_row F r false) /\ exists u, table_row F r false = u ++ [nl] /\ ~ In nl u).
  { intros r Pr. destruct (row_cells F r Pr) as (cs & ER & RC & _). rewrite ER. cbn [app]. split.
    - unfold reads_as. rewrite (words_line (row_words F r)) by exact RC. apply row_says, Pr.
    - exists (concat cs). split; [reflexivity|]. exact (cells_no_nl _ _ RC). }
  split.
  - assert (K : forall l, (forall r, In r l -> printable F r) -> Forall2 reads_as l (map (fun r => table_row F r false) l)).
    { induction l as [|r l IH]; intro Q; [constructor|]. constructor; [apply ROW, Q; left; reflexivity|apply IH; intros; apply Q; right; assumption]. }
    apply K, P.
  - intros l [<-|Hl].
    + rewrite EH. cbn [app]. exists (concat hc). split; [reflexivity|]. exact (cells_no_nl _ _ HC).
    + apply in_map_iff in Hl as (r & <- & Hr). apply ROW, P, Hr.
Qed.
Print Assumptions node_table_reads.

(** With bounds each line is the same with one more column; without nodes nothing is printed. *)
Theorem node_table_bounds : forall F,
  (forall r, exists u k, table_row F r false = u ++ [nl] /\ table_row F r true = u ++ nr_bounds r ++ blanks k ++ [nl]) /\
  (forall r, exists u, table_header F r false = u ++ [nl] /\ table_header F r true = u ++ txt "bounds    " ++ [nl]) /\
  (forall b, node_table F [] b = []) /\
  (forall b r rs, node_table F (r :: rs) b = concat (table_header F r b :: map (fun r => table_row F r b) (r :: rs))).
Proof.
  intro F. split; [|split; [|split; [reflexivity|reflexivity]]].
  - intro r. unfold table_row. cbv zeta. eexists _, _. split; [reflexivity|]. unfold pad. rewrite <- app_assoc. reflexivity.
  - intro r. unfold table_header. cbv zeta. eexists. split; reflexivity.
Qed.
Print Assumptions node_table_bounds.

(** The columns are aligned when the doubles are short (at most eight characters) and the bounds as long as those of the
    first node. *)
Theorem node_table_aligned : forall F r0 rs,
  (forall r, In r (r0 :: rs) -> printable F r /\
     (forall v, In v [nr_obj r; nr_value r; nr_intobj r] -> (List.length (string_fixed F 3 v) <= 8)%nat) /\
     List.length (string_fixed F 0 (nr_lb r)) = List.length (string_fixed F 0 (nr_lb r0)) /\
     List.length (string_fixed F 0 (nr_ub r)) = List.length (string_fixed F 0 (nr_ub r0))) ->
  exists widths, List.length widths = 15%nat /\ in_columns widths (table_header F r0 false) /\ forall r, In r (r0 :: rs) -> in_columns widths (table_row F r false).
Proof.
  intros F r0 rs H. exists (row_widths F r0). split; [reflexivity|].
  assert (W : forall r, In r (r0 :: rs) -> row_widths F r = row_widths F r0).
  { assert (W10 : forall t, (List.length t <= 8)%nat -> wide t = 10%nat) by (intros t L; unfold wide, WIDTH; destruct (Nat.leb_spec (10 - 1) (List.length t)); [lia|reflexivity]).
    intros r Hr. destruct (H r Hr) as (_ & A & B & C). destruct (H r0 (or_introl eq_refl)) as (_ & A0 & _ & _). unfold row_widths, narrow. rewrite B, C.
    rewrite !W10; try reflexivity; first [apply A; cbn [In]; tauto|apply A0; cbn [In]; tauto]. }
  split.
  - destruct (header_cells F r0) as (hc & EH & HH). destruct (HH (proj1 (H r0 (or_introl eq_refl)))) as [HC HW].
    exists hc. split; [exact (EH false)|]. split; [exact HW|]. clear -HC. induction HC as [|w c ws cs K _ IH]; [constructor|]. constructor; [exists w; apply words_one, K|exact IH].
  - intros r Hr. destruct (row_cells F r (proj1 (H r Hr))) as (cs & ER & RC & RW). exists cs. split; [exact (ER false)|]. split; [rewrite RW; apply W, Hr|].
    clear -RC. induction RC as [|w c ws cs K _ IH]; [constructor|]. constructor; [exists w; apply words_one, K|exact IH].
Qed.
Print Assumptions node_table_aligned.

(** ** Example: a root and two nodes below it. *)
(** A C library that prints whole numbers only (enough here). *)
Definition exC : clib := {| pf_g := fun _ _ => []; pf_f := fun p x => int_text (Qfloor x) ++ match p with O => [] | _ => "."%char :: repeat "0"%char p end; pf_lg := fun _ => 0%Z |}.
Lemma exC_prints p z : prints_f exC p (inject_Z z).
Proof.
  exists (inject_Z z). split; [|setoid_replace (inject_Z z - inject_Z z) with 0 by ring; change (Qabs 0) with 0; apply Qmult_le_0_compat; [discriminate|unfold power]].
  - cbn [pf_f exC]. rewrite Qfloor_Z. set (fr := match p with O => [] | _ => "."%char :: repeat "0"%char p end).
    assert (M : forall u w, unsigned u w -> mantissa (u ++ fr) (inject_Z w)).
    { intros u w U. subst fr. destruct p as [|k].
      - left. exists w. rewrite app_nil_r. split; [exact U|reflexivity].
      - right. exists u, (repeat "0"%char (S k)), w, 0%Z. split; [reflexivity|]. split; [exact U|]. split; [|unfold Qdiv; rewrite Qmult_0_l; ring].
        split; [discriminate|]. split; [apply Forall_forall; intros c Hc; apply repeat_spec in Hc; subst c; vm_compute; lia|].
        unfold dec_value. generalize (S k). intro n. induction n as [|n IH]; [reflexivity|]. exact IH. }
    destruct (int_text_spec z) as [U|(u & w & E & U & ->)].
    + exists [], (int_text z ++ fr), [], (inject_Z z), 0%Z. split; [rewrite app_nil_r; reflexivity|]. split; [apply M, U|]. split; [left; split; reflexivity|].
      left. split; [left; reflexivity|]. change (power 0) with 1. ring.
    + exists (txt "-"), (u ++ fr), [], (inject_Z w), 0%Z. split; [rewrite E, app_nil_r; reflexivity|]. split; [apply M, U|]. split; [left; split; reflexivity|].
      right. split; [reflexivity|]. change (power 0) with 1. rewrite inject_Z_opp. ring.
  - destruct (0 <=? - Z.of_nat p)%Z; [|apply Qinv_le_0_compat]; change 0 with (inject_Z 0); rewrite <- Zle_Qle; apply Z.pow_nonneg; lia.
Qed.
Definition exr (id parent var way : Z) (obj lb ub : Z) (s : text) : nrow :=
  {| nr_id := id; nr_parent := parent; nr_depth := id; nr_var := var; nr_branch := 0; nr_way := way; nr_obj := inject_Z obj; nr_value := inject_Z 0;
     nr_lb := inject_Z lb; nr_ub := inject_Z ub; nr_orig := id; nr_number := id; nr_intobj := DBL_MAX; nr_found := false; nr_status := s; nr_bounds := [] |}.
Lemma exr_ok id parent var way obj lb ub s : (0 <= id < 100)%Z -> (-1 <= parent < 100)%Z -> (0 <= var < 100)%Z ->
  (-100 < obj < 100)%Z -> (-100 < lb < 100)%Z -> (-100 < ub < 100)%Z -> In s (map txt ["normal"; "infeas"; "bound"; "integ"; "unknown"]%string) ->
  printable exC (exr id parent var way obj lb ub s).
Proof.
  intros H1 H2 H3 H4 H5 H6 HS. split; [|split; [|exact HS]].
  - intros z H. cbn [ints_in exr nr_id nr_parent nr_depth nr_var nr_branch nr_orig nr_number In] in H. change (10 ^ 8)%Z with 100000000%Z.
    destruct H as [<-|[<-|[<-|[<-|[<-|[<-|[<-|[]]]]]]]]; lia.
  - assert (KZ : forall z, (-100 < z < 100)%Z -> known (inject_Z z)).
    { intros z Hz. unfold known. apply Qle_trans with (inject_Z 100); [|vm_compute; discriminate]. apply Qabs_Qle_condition. rewrite <- inject_Z_opp. split; rewrite <- Zle_Qle; lia. }
    assert (G : forall p z, (p <= 3)%nat -> (-100 < z < 100)%Z -> (known (inject_Z z) \/ DBL_MAX <= inject_Z z \/ inject_Z z <= - DBL_MAX) /\
      (known (inject_Z z) -> prints_f exC p (inject_Z z) /\ (List.length (pf_f exC p (inject_Z z)) <= 400)%nat /\ ~ In " "%char (pf_f exC p (inject_Z z)))).
    { intros p z Hp Hz. split; [left; apply KZ, Hz|]. intros _. split; [apply exC_prints|]. cbn [pf_f exC]. rewrite Qfloor_Z. pose proof (small_int z) as L. change (10 ^ 8)%Z with 100000000%Z in L.
      split; [rewrite app_length|].
      - assert (List.length (int_text z) <= 9)%nat by (destruct (z <? 0)%Z; [apply L; lia|specialize (L ltac:(lia)); lia]). destruct p; cbn [List.length]; rewrite ?repeat_length; lia.
      - intro H. apply in_app_or in H. destruct H as [H|H].
        + destruct (solid_int z) as [_ F]. rewrite Forall_forall in F. discriminate (F _ H).
        + destruct p; [exact H|]. destruct H as [H|H]; [discriminate H|apply repeat_spec in H; discriminate H]. }
    intros p v H. cbn [doubles_of exr nr_obj nr_value nr_lb nr_ub nr_intobj In] in H.
    destruct H as [H|[H|[H|[H|[H|[]]]]]]; injection H as <- <-; try (apply G; lia).
    split; [right; left; apply Qle_refl|]. intro K. exfalso. revert K. vm_compute. congruence.
Qed.
Example node_table_meets : let rs := [exr 0 (-1) 3 1 12 0 1 (txt "normal"); exr 1 0 5 (-1) 13 0 1 (txt "normal"); exr 2 1 0 0 20 0 0 (txt "bound")] in
  (forall r, In r rs -> printable exC r /\ (forall v, In v [nr_obj r; nr_value r; nr_intobj r] -> (List.length (string_fixed exC 3 v) <= 8)%nat) /\
     List.length (string_fixed exC 0 (nr_lb r)) = 1%nat /\ List.length (string_fixed exC 0 (nr_ub r)) = 1%nat) /\
  table_row exC (exr 1 0 5 (-1) 13 0 1 (txt "normal")) false =
    txt " 1         0         1         5         0        down      13.000    0.000     0  1   1         1        'inf'      0        normal    " ++ NL.
Proof.
  cbv zeta. split; [|vm_compute; reflexivity].
  intros r Hr. split; [destruct Hr as [<-|[<-|[<-|[]]]]; apply exr_ok; try lia; cbn [map In]; tauto|].
  split; [|destruct Hr as [<-|[<-|[<-|[]]]]; split; vm_compute; reflexivity].
  intros v Hv. destruct Hr as [<-|[<-|[<-|[]]]]; cbn [In] in Hv; destruct Hv as [<-|[<-|[<-|[]]]]; apply Nat.leb_le; vm_compute; reflexivity.
Qed.

(** Refuted: "the widths line up with the header" in general: with bounds of another length the columns behind them move. *)
Theorem node_table_misaligned_refuted : exists F r0 r1, printable F r0 /\ printable F r1 /\
  node_table F [r0; r1] false = table_header F r0 false ++ table_row F r0 false ++ table_row F r1 false /\
  ~ exists widths, in_columns widths (table_header F r0 false) /\ in_columns widths (table_row F r1 false).
Proof.
  exists exC, (exr 0 (-1) 3 1 12 0 1 (txt "normal")), (exr 1 0 5 1 13 0 10 (txt "normal")).
  split; [apply exr_ok; try lia; cbn [map In]; tauto|]. split; [apply exr_ok; try lia; cbn [map In]; tauto|]. split; [cbn [node_table map concat]; rewrite app_nil_r; reflexivity|].
  intros (w & (c1 & E1 & L1 & _) & (c2 & E2 & L2 & _)).
  assert (LC : forall cs, List.length (concat cs) = fold_right Nat.add 0%nat (map (@List.length ascii) cs)).
  { induction cs as [|c cs IH]; [reflexivity|]. cbn [concat map fold_right]. rewrite app_length, IH. reflexivity. }
  apply (f_equal (@List.length ascii)) in E1, E2. rewrite app_length, LC, L1 in E1. rewrite app_length, LC, L2 in E2. rewrite <- E1 in E2. vm_compute in E2. discriminate E2.
Qed.
Print Assumptions node_table_misaligned_refuted.

(** Refuted: "the words of a line can always be told apart": a number of nine digits runs into a negative one. *)
Theorem node_table_joined_refuted : forall F, exists r, firstn 20 (table_row F r false) = txt " 123456789-1        " /\ hd [] (words (firstn 20 (table_row F r false))) = txt "123456789-1".
Proof.
  intro F. exists (exr 123456789 (-1) 0 1 0 0 0 (txt "normal")).
  assert (E : forall l, firstn 20 (signed_cell WIDTH 123456789 ++ signed_cell WIDTH (-1) ++ l) = txt " 123456789-1        ") by (intro l; vm_compute; destruct l; reflexivity).
  unfold table_row. cbv zeta. cbn [concat exr nr_id nr_parent]. rewrite <- !app_assoc, E. split; vm_compute; reflexivity.
Qed.
Print Assumptions node_table_joined_refuted.
