(** C77: a CPLEX model converted for Osi. *)
From Verif Require Import Prelude Model.LP Model.Tolerance Model.SolverHelper Model.Convert Spec.LPSpec Spec.SolverSpec Spec.ConvertSpec
  Proofs.ToleranceP Properties.C58_LoadArrays.
#[local] Open Scope Q_scope.

Section Convert.
Variable M : cpxmodel.
Notation pre k := (flat_map (cm_col M) (seq 0 k)).

Lemma pre_S k : pre (S k) = pre k ++ cm_col M k.
Proof using. rewrite seq_S, flat_map_app. cbn [flat_map plus]. now rewrite app_nil_r. Qed.
Lemma pre_split k : (k < cm_n M)%nat -> exists post, cpx_entries M = pre k ++ cm_col M k ++ post.
Proof using.
  intro H. unfold cpx_entries. replace (cm_n M) with (S k + (cm_n M - S k))%nat by lia. rewrite seq_app, flat_map_app, pre_S, <- app_assoc.
  now eexists.
Qed.

Lemma nth_window {A} (p q r : list A) d : map (fun k => nth k (p ++ q ++ r) d) (seq (length p) (length q)) = q.
Proof using.
  revert p. induction q as [|x q IH]; intro p; [reflexivity|]. cbn [length seq map]. f_equal.
  - rewrite app_nth2 by lia. replace (length p - length p)%nat with 0%nat by lia. reflexivity.
  - specialize (IH (p ++ [x])). rewrite app_length in IH. cbn [length] in IH. replace (length p + 1)%nat with (S (length p)) in IH by lia.
    rewrite <- IH at 2. apply map_ext. intro k. f_equal. rewrite <- app_assoc. reflexivity.
Qed.

Lemma put_col_spec k : (k < cm_n M)%nat ->
  put_col M (map (cpx_beg M) (seq 0 k), map fst (pre k), map snd (pre k)) k =
  (map (cpx_beg M) (seq 0 (S k)), map fst (pre (S k)), map snd (pre (S k))).
Proof using.
  intro H. unfold put_col. assert (E : (if Nat.ltb (S k) (cm_n M) then cpx_beg M (S k) else cpx_nz M) = cpx_beg M (S k)).
  { destruct (Nat.ltb_spec (S k) (cm_n M)); [reflexivity|]. replace (S k) with (cm_n M) by lia. reflexivity. }
  rewrite E. clear E. assert (L : (cpx_beg M (S k) - cpx_beg M k)%nat = length (cm_col M k)).
  { unfold cpx_beg. rewrite pre_S, app_length. lia. }
  rewrite L. destruct (pre_split k H) as [post P]. f_equal; [f_equal|].
  - rewrite seq_S, map_app. cbn [map plus]. f_equal. rewrite map_length. reflexivity.
  - rewrite pre_S, map_app. f_equal. unfold cpx_ind, cpx_beg. rewrite P, !map_app.
    rewrite <- (map_length fst (pre k)), <- (map_length fst (cm_col M k)). apply nth_window.
  - rewrite pre_S, map_app. f_equal. unfold cpx_val, cpx_beg. rewrite P, !map_app.
    rewrite <- (map_length snd (pre k)), <- (map_length snd (cm_col M k)). apply nth_window.
Qed.
Lemma put_cols k : (k <= cm_n M)%nat ->
  fold_left (put_col M) (seq 0 k) ([], [], []) = (map (cpx_beg M) (seq 0 k), map fst (pre k), map snd (pre k)).
Proof using.
  induction k as [|k IH]; intro H; [reflexivity|]. rewrite seq_S at 1. rewrite fold_left_app, IH by lia. cbn [fold_left plus].
  apply put_col_spec. lia.
Qed.

(** The data of a model with nonzeros. *)
Definition the_rows : list (option Q * option Q * bool) := map (fun i => row_bounds (cm_sense M i) (cm_rhs M i)) (seq 0 (cm_m M)).
Definition the_data : pdata :=
  let cols := seq 0 (cm_n M) in
  {| d_n := cm_n M; d_m := cm_m M; d_sen := cm_sen M; d_off := cm_off M; d_start := map (cpx_beg M) (seq 0 (S (cm_n M)));
     d_index := map fst (cpx_entries M); d_value := map snd (cpx_entries M);
     d_collb := map (cm_lb M) cols; d_colub := map (cm_ub M) cols; d_obj := map (cm_obj M) cols;
     d_rowlb := map (fun x => fst (fst x)) the_rows; d_rowub := map (fun x => snd (fst x)) the_rows;
     d_type := map (fun j => match cm_type M with Some t => Some (t j) | None => None end) cols |}.
Lemma convert_eq : (0 < cpx_nz M)%nat -> cm_second M = 0%Z ->
  ConvertCPX2Data M = ((if forallb snd the_rows then 0 else 1)%Z, Some the_data).
Proof using.
  intros N S2. unfold ConvertCPX2Data, first_call. destruct (Nat.ltb_spec 0 (cpx_nz M)) as [_|F]; [|lia]. rewrite Z.eqb_refl, S2. cbn [Z.eqb negb].
  rewrite put_cols by lia. rewrite map_length. change (length (pre (cm_n M))) with (cpx_nz M). rewrite Nat.eqb_refl. cbn [andb].
  unfold the_data. rewrite seq_S, map_app. cbn [map plus]. reflexivity.
Qed.

Lemma window {A B} (f : A -> B) (p q r : list A) : firstn (length q) (skipn (length p) (map f (p ++ q ++ r))) = map f q.
Proof using.
  rewrite skipn_map, firstn_map. f_equal. rewrite skipn_app, skipn_all, Nat.sub_diag. cbn [app skipn].
  rewrite firstn_app, firstn_all, Nat.sub_diag. cbn [firstn]. apply app_nil_r.
Qed.

Lemma data_col_eq j : (j < cm_n M)%nat -> data_col the_data j = cm_col M j.
Proof using.
  intro H. unfold data_col, the_data. cbn [d_start d_index d_value].
  assert (N : forall k, (k <= cm_n M)%nat -> nth k (map (cpx_beg M) (seq 0 (S (cm_n M)))) 0%nat = cpx_beg M k).
  { intros k Hk. rewrite (nth_indep _ 0%nat (cpx_beg M 0)) by (rewrite map_length, seq_length; lia). rewrite map_nth, seq_nth by lia. reflexivity. }
  rewrite !N by lia. destruct (pre_split j H) as [post P]. rewrite P. unfold cpx_beg. rewrite pre_S, app_length, !map_app.
  replace (length (pre j) + length (cm_col M j) - length (pre j))%nat with (length (cm_col M j)) by lia.
  rewrite <- !map_app, !window.
  clear. induction (cm_col M j) as [|[a b] l IH]; [reflexivity|]. cbn [map combine fst snd]. now rewrite IH.
Qed.

Lemma data_row_dot i x : pdot (data_row the_data i) x == cpx_activity M i x.
Proof using.
  unfold data_row, cpx_activity. cbn [the_data d_n].
  assert (G : forall l, (forall j, In j l -> (j < cm_n M)%nat) -> pdot (flat_map (fun j => map (fun e => (j, snd e)) (filter (fun e => Nat.eqb (fst e) i) (data_col the_data j))) l) x ==
     Qsumf (fun j => coefficient M i j * x j) l).
  { induction l as [|j l IH]; intro H; [reflexivity|]. cbn [flat_map]. rewrite pdot_app, Qsumf_cons, IH by (intros k Hk; apply H; now right).
    rewrite data_col_eq by (apply H; now left). apply Qplus_comp; [|reflexivity]. unfold coefficient, pdot. rewrite Qsumf_map. cbn [fst snd].
    clear. induction (filter (fun e => Nat.eqb (fst e) i) (cm_col M j)) as [|e t IH]; [rewrite !Qsumf_nil; ring|]. rewrite !Qsumf_cons, IH. ring. }
  apply G. intros j Hj. apply in_seq in Hj. lia.
Qed.

Lemma all_some_map {A B} (f : B -> option A) (g : B -> A) l : (forall b, In b l -> f b = Some (g b)) -> all_some (map f l) = Some (map g l).
Proof using.
  intro H. induction l as [|b l IH]; [reflexivity|]. cbn [map all_some fold_right]. rewrite (H b (or_introl eq_refl)).
  change (fold_right _ (Some []) (map f l)) with (all_some (map f l)). rewrite IH by (intros c Hc; apply H; now right). reflexivity.
Qed.
Lemma nth_map_seq {A} (f : nat -> A) n k d : (k < n)%nat -> nth k (map f (seq 0 n)) d = f k.
Proof using. intro H. rewrite (nth_indep _ d (f 0%nat)) by (rewrite map_length, seq_length; lia). now rewrite map_nth, seq_nth. Qed.

Lemma lower_Some big q : - big < q -> lower_bound big q = Some q.
Proof using. intro H. unfold lower_bound. destruct (Qle_bool q (- big)) eqn:E; [apply Qle_bool_le in E; lra|reflexivity]. Qed.
Lemma upper_Some big q : q < big -> upper_bound big q = Some q.
Proof using. intro H. unfold upper_bound. destruct (Qle_bool big q) eqn:E; [apply Qle_bool_le in E; lra|reflexivity]. Qed.
Lemma lower_None big q : q <= - big -> lower_bound big q = None.
Proof using. intro H. unfold lower_bound. apply Qle_bool_iff in H. now rewrite H. Qed.
Lemma upper_None big q : big <= q -> upper_bound big q = None.
Proof using. intro H. unfold upper_bound. apply Qle_bool_iff in H. now rewrite H. Qed.

Definition lo_of (i : nat) : Q := if Ascii.eqb (cm_sense M i) sL then - DBL_MAX else cm_rhs M i.
Definition up_of (i : nat) : Q := if Ascii.eqb (cm_sense M i) sG then DBL_MAX else cm_rhs M i.
Lemma row_bounds_plain i : cm_sense M i = "G"%char \/ cm_sense M i = "L"%char \/ cm_sense M i = "E"%char ->
  row_bounds (cm_sense M i) (cm_rhs M i) = (Some (lo_of i), Some (up_of i), true).
Proof using. unfold lo_of, up_of. intros [-> | [-> | ->]]; reflexivity. Qed.

(** A model with nonzeros, with rows G, L, E and columns C, B, I: no error is reported and the solver's problem minimises, over
    the points of the model with entries within CPLEX's infinity, the model's objective (times its sense) without its constant. *)
Theorem convert_faithful : forall big range, plain M -> (0 < cpx_nz M)%nat -> cm_second M = 0%Z -> cpx_inf < big -> big <= DBL_MAX ->
  fst (ConvertCPX2Data M) = 0%Z /\
  exists P, load_cplex big M = Some P /\ os_sense P == 1 /\ ncols (os_lp P) = cm_n M /\
    (forall x, solver_point P x <-> cpx_point M range x /\ forall j, (j < cm_n M)%nat -> - cpx_inf <= x j <= cpx_inf) /\
    (forall x, obj_value P x == inject_Z (cm_sen M) * (cpx_value M x - cm_off M)).
Proof using.
  intros big range (PS & (t & PT & PT') & PR & PB & PBin & PSen) N S2 Hb HD.
  assert (I0 : 0 < cpx_inf) by reflexivity.
  assert (FR : forallb snd the_rows = true).
  { apply forallb_forall. intros r Hr. apply in_map_iff in Hr. destruct Hr as (i & <- & Hi). apply in_seq in Hi.
    rewrite row_bounds_plain by (apply PS; lia). reflexivity. }
  pose proof (convert_eq N S2) as C. rewrite FR in C. split; [now rewrite C|].
  assert (RL : all_some (d_rowlb the_data) = Some (map lo_of (seq 0 (cm_m M)))).
  { cbn [the_data d_rowlb]. unfold the_rows. rewrite map_map. apply all_some_map. intros i Hi. apply in_seq in Hi. rewrite row_bounds_plain by (apply PS; lia). reflexivity. }
  assert (RU : all_some (d_rowub the_data) = Some (map up_of (seq 0 (cm_m M)))).
  { cbn [the_data d_rowub]. unfold the_rows. rewrite map_map. apply all_some_map. intros i Hi. apply in_seq in Hi. rewrite row_bounds_plain by (apply PS; lia). reflexivity. }
  assert (TY : all_some (d_type the_data) = Some (map t (seq 0 (cm_n M)))).
  { cbn [the_data d_type]. rewrite PT. apply all_some_map. reflexivity. }
  unfold load_cplex. rewrite C. unfold data_arrays. rewrite RL, RU, TY. cbn [option_map].
  match goal with |- context [load_arrays 0 ?D] => set (D0 := D) end. exists (load_arrays 0 D0). split; [reflexivity|].
  assert (SD : pa_sense D0 == 1 \/ pa_sense D0 == -(1)) by (cbn [D0 pa_sense the_data d_sen]; destruct PSen as [-> | ->]; [left|right]; reflexivity).
  destruct (load_arrays_effect 0 D0 SD) as (E1 & E2 & E3 & E4). split; [exact E1|]. split; [exact E2|]. split.
  - intro x. rewrite E3. unfold cpx_point.
    assert (RR : in_rows (pa_lp D0) x <-> forall i, (i < cm_m M)%nat -> cpx_row M range i x).
    { unfold in_rows. cbn [D0 pa_lp nrows rows rlo rup rcoef the_data d_m]. fold the_data.
      split; intros H i Hi; specialize (H i Hi); pose proof (data_row_dot i x) as DD; pose proof (PR i Hi) as [R1 R2].
      - rewrite !nth_map_seq in H by exact Hi. unfold lo_of, up_of in H. unfold cpx_row.
        destruct (PS i Hi) as [F | [F | F]]; rewrite F in *; cbn [Ascii.eqb sL sG Bool.eqb] in H.
        + rewrite lower_Some in H by lra. destruct H as [H _]. cbn [above] in H. rewrite DD in H. repeat split; try discriminate. intros _. exact H.
        + rewrite upper_Some in H by lra. destruct H as [_ H]. cbn [below] in H. rewrite DD in H. repeat split; try discriminate. intros _. exact H.
        + rewrite upper_Some, lower_Some in H by lra. destruct H as [H H']. cbn [above below] in H, H'. rewrite DD in H, H'. repeat split; try discriminate. intros _. now apply Qle_antisym.
      - rewrite !nth_map_seq by exact Hi. unfold lo_of, up_of. unfold cpx_row in H.
        destruct (PS i Hi) as [F | [F | F]]; rewrite F in *; cbn [Ascii.eqb sL sG Bool.eqb].
        + rewrite lower_Some by lra. rewrite upper_None by lra. cbn [above below]. rewrite DD. split; [apply (proj1 H); reflexivity|exact Logic.I].
        + rewrite upper_Some by lra. rewrite lower_None by lra. cbn [above below]. rewrite DD. split; [exact Logic.I|apply (proj1 (proj2 H)); reflexivity].
        + rewrite upper_Some, lower_Some by lra. cbn [above below]. rewrite DD. destruct H as (_ & _ & H & _). rewrite (H eq_refl). split; apply Qle_refl. }
    rewrite RR.
    assert (CC : (forall j, (j < ncols (pa_lp D0))%nat ->
        (pa_type D0 j = B -> 0 <= x j <= 1) /\ (pa_type D0 j <> B -> above (clo (pa_lp D0) j) (x j) /\ below (cup (pa_lp D0) j) (x j)) /\
        (pa_type D0 j = B \/ pa_type D0 j = I_ -> exists z : Z, x j == inject_Z z)) <->
      (forall j, (j < cm_n M)%nat -> cpx_col M j (x j)) /\ (forall j, (j < cm_n M)%nat -> - cpx_inf <= x j <= cpx_inf)).
    { cbn [D0 pa_lp ncols pa_type clo cup the_data d_n d_collb d_colub].
      assert (TE : forall j, (j < cm_n M)%nat -> nth j (map t (seq 0 (cm_n M))) "C"%char = t j) by (intros; now apply nth_map_seq).
      assert (TT : forall j, type_of M j = t j) by (intro j; unfold type_of; now rewrite PT).
      split.
      - intro H. assert (K : forall j, (j < cm_n M)%nat -> cm_lb M j <= x j <= cm_ub M j).
        { intros j Hj. specialize (H j Hj). rewrite TE in H by exact Hj. destruct H as (H1 & H2 & H3). destruct (Ascii.eqb_spec (t j) B) as [TB|TB].
          - specialize (H1 TB). destruct (PBin j Hj ltac:(rewrite TT; exact TB)) as [-> ->]. exact H1.
          - specialize (H2 TB). rewrite !nth_map_seq in H2 by exact Hj. destruct (PB j Hj) as [B1 B2].
            rewrite lower_Some, upper_Some in H2 by lra. exact H2. }
        split.
        + intros j Hj. specialize (K j Hj). unfold cpx_col. rewrite TT. split; [|split].
          * intros _. split; intros _; apply K.
          * intros _. right. split; intros _; apply K.
          * intro T. specialize (H j Hj). rewrite TE in H by exact Hj. apply H. destruct T as [T | [T | T]]; [left; exact T|right; exact T|].
            destruct (PT' j Hj) as [F | [F | F]]; rewrite F in T; discriminate T.
        + intros j Hj. specialize (K j Hj). specialize (PB j Hj). lra.
      - intros [H HI] j Hj. specialize (H j Hj). specialize (HI j Hj). rewrite TE by exact Hj. unfold cpx_col in H. rewrite TT in H. destruct H as (H1 & _ & H3).
        specialize (H1 (PT' j Hj)). destruct H1 as [H1 H2]. pose proof (PB j Hj) as [B1 B2].
        assert (K : cm_lb M j <= x j <= cm_ub M j).
        { split; [destruct (Qlt_le_dec (- cpx_inf) (cm_lb M j)); [now apply H1|lra]|destruct (Qlt_le_dec (cm_ub M j) cpx_inf); [now apply H2|lra]]. }
        split; [|split].
        + intro TB. destruct (PBin j Hj ltac:(rewrite TT; exact TB)) as [E E']. rewrite E, E' in K. exact K.
        + intros _. rewrite !nth_map_seq by exact Hj. rewrite lower_Some, upper_Some by lra. exact K.
        + intros [T|T]; apply H3; [left; exact T|right; left; exact T]. }
    rewrite CC. tauto.
  - intro x. rewrite E4. cbn [D0 pa_sense pa_lp obj ncols the_data d_sen d_n d_obj]. unfold cpx_value.
    rewrite (Qsumf_ext (fun j => nth j (map (cm_obj M) (seq 0 (cm_n M))) 0 * x j) (fun j => cm_obj M j * x j)).
    + ring.
    + intros j Hj. apply in_seq in Hj. rewrite nth_map_seq by lia. reflexivity.
Qed.

End Convert.
Print Assumptions convert_faithful.

(** max 2 x0 - x1 + 7, x0 + 3 x1 <= 4 (or another sense), x0 integer in 0..3, x1 >= 0 without upper bound. *)
Definition model (s : ascii) (ty : option (nat -> ascii)) (cols : nat -> packed) : cpxmodel :=
  {| cm_n := 2; cm_m := 1; cm_sen := (-1)%Z; cm_off := 7; cm_obj := fun j => if Nat.eqb j 0 then 2 else -(1);
     cm_lb := fun _ => 0; cm_ub := fun j => if Nat.eqb j 0 then 3 else cpx_inf; cm_type := ty;
     cm_rhs := fun _ => 4; cm_sense := fun _ => s; cm_col := cols; cm_second := 0%Z |}.
Definition xtypes : option (nat -> ascii) := Some (fun j => if Nat.eqb j 0 then "I"%char else "C"%char).
Definition xcols (j : nat) : packed := if Nat.eqb j 0 then [(0%nat, 1)] else [(0%nat, 3)].
Definition xM : cpxmodel := model "L"%char xtypes xcols.

Lemma plain_model cols s : s = "G"%char \/ s = "L"%char \/ s = "E"%char -> plain (model s xtypes cols).
Proof.
  intro Hs. split; [|split; [|split; [|split; [|split]]]].
  - intros i _. exact Hs.
  - eexists. split; [reflexivity|]. intros [|j] _; [right; right; reflexivity|left; reflexivity].
  - intros i _. split; vm_compute; discriminate.
  - intros [|j] _; split; vm_compute; discriminate.
  - intros [|j] _ T; discriminate T.
  - right. reflexivity.
Qed.
Example faithful_case : plain xM /\ (0 < cpx_nz xM)%nat /\ cm_second xM = 0%Z /\ cpx_inf < DBL_MAX /\
  exists P, load_cplex DBL_MAX xM = Some P /\ solver_point P (fun j => if Nat.eqb j 0 then 1 else 1) /\ ~ solver_point P (fun j => if Nat.eqb j 0 then 3 else 1).
Proof.
  split; [apply plain_model; right; left; reflexivity|]. split; [vm_compute; lia|]. split; [reflexivity|]. split; [reflexivity|].
  destruct (convert_faithful xM DBL_MAX (fun _ => 0) (plain_model _ _ (or_intror (or_introl eq_refl))) ltac:(vm_compute; lia) eq_refl eq_refl ltac:(apply Qle_refl))
    as (_ & P & L & _ & _ & QQ & _).
  exists P. split; [exact L|]. split.
  - apply QQ. split; [|intros [|j] _; vm_compute; split; discriminate]. split.
    + intros [|i] Hi; [|cbn in Hi; lia]. split; [discriminate|]. split; [intros _; vm_compute; discriminate|]. split; discriminate.
    + intros [|j] _; (split; [intros _; split; intros _; vm_compute; discriminate|]; split).
      * intros [T|T]; discriminate T.
      * intros _. now exists 1%Z.
      * intros [T|T]; discriminate T.
      * intros _. now exists 1%Z.
  - intro F. apply QQ in F. destruct F as [[F _] _]. specialize (F 0%nat ltac:(cbn; lia)). destruct F as (_ & F & _). specialize (F eq_refl). revert F.
    vm_compute. intro F. apply F. reflexivity.
Qed.

(** Refuted: values in the solver are not the model's values times its sense, since the constant of the objective is dropped. *)
Theorem constant_refuted : exists M P, plain M /\ load_cplex DBL_MAX M = Some P /\ forall x, obj_value P x == - (cpx_value M x) + 7.
Proof.
  destruct (convert_faithful xM DBL_MAX (fun _ => 0) (plain_model _ _ (or_intror (or_introl eq_refl))) ltac:(vm_compute; lia) eq_refl eq_refl ltac:(apply Qle_refl))
    as (_ & P & L & _ & _ & _ & QQ).
  exists xM, P. split; [apply plain_model; right; left; reflexivity|]. split; [exact L|]. intro x. rewrite QQ. cbn [xM model cm_sen cm_off].
  change (inject_Z (-1)) with (-(1)). ring.
Qed.
Print Assumptions constant_refuted.

(** Refuted: a column without bound is loaded with CPLEX's 1e20 as its bound, so points of the model are lost. *)
Theorem infinite_bound_refuted : exists M P x, plain M /\ load_cplex DBL_MAX M = Some P /\ cpx_point M (fun _ => 0) x /\ ~ solver_point P x.
Proof.
  set (M := model "G"%char xtypes xcols).
  destruct (convert_faithful M DBL_MAX (fun _ => 0) (plain_model _ _ (or_introl eq_refl)) ltac:(vm_compute; lia) eq_refl eq_refl ltac:(apply Qle_refl))
    as (_ & P & L & _ & _ & QQ & _).
  exists M, P, (fun j => if Nat.eqb j 0 then 0 else inject_Z (10 ^ 21)). split; [apply plain_model; left; reflexivity|]. split; [exact L|]. split.
  - split.
    + intros [|i] Hi; [|cbn in Hi; lia]. split; [intros _; vm_compute; discriminate|]. split; [discriminate|]. split; discriminate.
    + intros [|[|j]] Hj; [| |cbn in Hj; lia].
      * split; [intros _; split; intros _; vm_compute; discriminate|]. split; [intros [T|T]; discriminate T|]. intros _. now exists 0%Z.
      * split; [intros _; split; [intros _; vm_compute; discriminate|]|].
        -- intro F. exfalso. revert F. vm_compute. discriminate.
        -- split; [intros [T|T]; discriminate T|intros [T | [T|T]]; discriminate T].
  - intro F. apply QQ in F. destruct F as [_ F]. specialize (F 1%nat ltac:(cbn; lia)). destruct F as [_ F]. revert F. vm_compute. intro F. apply F. reflexivity.
Qed.
Print Assumptions infinite_bound_refuted.

(** Refuted: a ranged row is reported (return value 1), but the data are filled with bounds of the row that were never written. *)
Theorem ranged_row_refuted : exists M d, ConvertCPX2Data M = (1%Z, Some d) /\ d_rowlb d = [None] /\ d_rowub d = [None] /\ d_type d = [Some "I"%char; Some "C"%char] /\
  cpx_point M (fun _ => 2) (fun j => if Nat.eqb j 0 then 1 else 1).
Proof.
  exists (model "R"%char xtypes xcols). eexists. split; [apply convert_eq; [vm_compute; lia|reflexivity]|].
  split; [reflexivity|]. split; [reflexivity|]. split; [reflexivity|]. split.
  - intros [|i] Hi; [|cbn in Hi; lia]. split; [discriminate|]. split; [discriminate|]. split; [discriminate|]. intros _. split; [intros _; split; vm_compute; discriminate|].
    intro F. exfalso. revert F. vm_compute. intro F. apply F. reflexivity.
  - intros [|j] _; (split; [intros _; split; intros _; vm_compute; discriminate|]; split).
    + intros [T|T]; discriminate T.
    + intros _. now exists 1%Z.
    + intros [T|T]; discriminate T.
    + intros _. now exists 1%Z.
Qed.
Print Assumptions ranged_row_refuted.

(** Refuted: a model without nonzeros is reported as converted (0), but nothing is written. *)
Theorem no_nonzeros_refuted : forall M, cpx_nz M = 0%nat -> ConvertCPX2Data M = (0%Z, None).
Proof. intros M E. unfold ConvertCPX2Data, first_call. rewrite E. reflexivity. Qed.
Print Assumptions no_nonzeros_refuted.

(** If CPLEX cannot give the columns, its error code is returned and the data are not touched; nothing is loaded. *)
Theorem failing_query : forall M big, (0 < cpx_nz M)%nat -> cm_second M <> 0%Z -> ConvertCPX2Data M = (cm_second M, None) /\ load_cplex big M = None.
Proof.
  intros M big N S. assert (E : ConvertCPX2Data M = (cm_second M, None)). { unfold ConvertCPX2Data, first_call. apply Nat.ltb_lt in N. rewrite N, Z.eqb_refl. apply Z.eqb_neq in S. rewrite S. reflexivity. }
  split; [exact E|]. unfold load_cplex. rewrite E. reflexivity.
Qed.
Print Assumptions failing_query.

(** Refuted: for a model without integer columns (no types to ask for) 0 is returned though the types of the columns were never
    written. *)
Theorem no_types_refuted : exists M d, ConvertCPX2Data M = (0%Z, Some d) /\ d_type d = [None; None] /\ forall big, load_cplex big M = None.
Proof.
  exists (model "L"%char None xcols). eexists. split; [apply convert_eq; [vm_compute; lia|reflexivity]|]. split; [reflexivity|].
  intro big. unfold load_cplex. rewrite convert_eq by (try (vm_compute; lia); reflexivity). reflexivity.
Qed.
Print Assumptions no_types_refuted.

(** Refuted: semi-continuous columns lose the 0 below their lower bound. *)
Definition semi : cpxmodel :=
  {| cm_n := 1; cm_m := 1; cm_sen := 1%Z; cm_off := 0; cm_obj := fun _ => 1; cm_lb := fun _ => 2; cm_ub := fun _ => 3; cm_type := Some (fun _ => "S"%char);
     cm_rhs := fun _ => 0; cm_sense := fun _ => "G"%char; cm_col := fun _ => [(0%nat, 1)]; cm_second := 0%Z |}.
Theorem semicontinuous_refuted : exists P, fst (ConvertCPX2Data semi) = 0%Z /\ load_cplex DBL_MAX semi = Some P /\
  cpx_point semi (fun _ => 0) (fun _ => 0) /\ ~ solver_point P (fun _ => 0).
Proof.
  eexists. split; [reflexivity|]. split; [reflexivity|]. split.
  - split.
    + intros [|i] Hi; [|cbn in Hi; lia]. split; [intros _; vm_compute; discriminate|]. split; [discriminate|]. split; discriminate.
    + intros j _. split; [intros [T | [T|T]]; discriminate T|]. split; [intros _; left; reflexivity|intros [T | [T|T]]; discriminate T].
  - intros [[F _] _]. specialize (F 0%nat). cbn in F. specialize (F ltac:(lia)). destruct F as [F _]. revert F. vm_compute. intro F. apply F. reflexivity.
Qed.
Print Assumptions semicontinuous_refuted.
