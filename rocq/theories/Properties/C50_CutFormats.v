(** C50: cuts converted between representations. *)
From Verif Require Import Prelude Model.LP Model.SolverHelper Spec.LPSpec Spec.SolverSpec Proofs.ToleranceP Proofs.SolverHelperP Proofs.NBPointP.

(** Left-hand sides of the three formats, and a point satisfying a row cut with its two bounds. *)
Definition sparse_lhs (c : sparsecut) (x : nat -> Q) : Q := Qsumf (fun e => snd e * x (fst e)) (combine (sc_index c) (sc_coeff c)).
Definition dense_lhs (c : densecut) (x : nat -> Q) : Q := Qsumf (fun j => nth j (dc_coeff c) 0 * x j) (seq 0 (length (dc_coeff c))).
Definition meets_rowcut (c : orowcut) (x : nat -> Q) : Prop :=
  above (oc_lb c) (pdot (oc_row c) x) /\ below (oc_ub c) (pdot (oc_row c) x).

Lemma with_rows_spec {A} (f : orowcut -> option A) p l : with_rows f p = Some l ->
  op_ncols p = O /\ Forall2 (fun c a => f c = Some a) (op_rows p) l.
Proof.
  unfold with_rows. destruct (op_ncols p); [|discriminate]. intro H. split; [reflexivity|]. revert l H.
  induction (op_rows p) as [|c r IH]; cbn [fold_right]; intros l H; [injection H as <-; constructor|].
  destruct (f c) as [a|] eqn:E; [|discriminate]. destruct (fold_right _ _ r) as [l'|]; [|discriminate]. injection H as <-.
  constructor; [exact E|]. apply IH. reflexivity.
Qed.
Lemma with_rows_ok {A} (f : orowcut -> option A) p : op_ncols p = O -> (forall c, In c (op_rows p) -> f c <> None) -> with_rows f p <> None.
Proof.
  unfold with_rows. intros -> H. induction (op_rows p) as [|c r IH]; cbn [fold_right]; [discriminate|].
  pose proof (H c (or_introl eq_refl)). destruct (f c); [|congruence].
  destruct (fold_right _ _ r); [discriminate|]. exfalso. apply IH; [|reflexivity]. intros d I. apply H. right. exact I.
Qed.

(** Sparse cuts: one per row cut, in order, with the same entries, left-hand side and right-hand side;
    for a ">=" cut the points satisfying it are those with sparse left-hand side at least [rhs]. *)
Theorem sparse_exact : forall p, op_ncols p = O -> exists l, convertCutsToSparseCuts (Some p) = Some l /\
  Forall2 (fun c s => sc_num s = length (oc_row c) /\ combine (sc_index s) (sc_coeff s) = oc_row c /\
     length (sc_index s) = sc_num s /\ length (sc_coeff s) = sc_num s /\
     (forall x, sparse_lhs s x == pdot (oc_row c) x) /\
     (forall b, oc_ub c = Some b -> sc_rhs s = b) /\ (forall b, oc_ub c = None -> oc_lb c = Some b -> sc_rhs s = b) /\
     (forall b x, oc_lb c = Some b -> oc_ub c = None -> (meets_rowcut c x <-> sc_rhs s <= sparse_lhs s x)))
    (op_rows p) l.
Proof.
  intros p N. destruct (convertCutsToSparseCuts (Some p)) as [l|] eqn:E;
    [|exfalso; revert E; apply with_rows_ok; [exact N|discriminate]].
  exists l. split; [reflexivity|]. apply with_rows_spec in E. destruct E as [_ E]. clear N.
  induction E as [|c s r l' H E IH]; constructor; [|exact IH]. injection H as <-. cbn [sc_num sc_index sc_coeff sc_rhs].
  assert (C : combine (map fst (oc_row c)) (map snd (oc_row c)) = oc_row c).
  { induction (oc_row c) as [|[i q] v IHv]; [reflexivity|]. cbn [map combine fst snd]. rewrite IHv. reflexivity. }
  assert (LHS : forall x, sparse_lhs {| sc_num := length (oc_row c); sc_index := map fst (oc_row c); sc_coeff := map snd (oc_row c); sc_rhs := oc_rhs c |} x == pdot (oc_row c) x).
  { intro x. unfold sparse_lhs. cbn [sc_index sc_coeff]. rewrite C. reflexivity. }
  split; [reflexivity|]. split; [exact C|]. split; [apply map_length|]. split; [apply map_length|]. split; [exact LHS|].
  unfold oc_rhs, rowRHS. cbn [rlo rup]. split; [|split].
  - intros b ->. destruct (oc_lb c); reflexivity.
  - intros b -> ->. reflexivity.
  - intros b x LB UB. specialize (LHS x). unfold oc_rhs, rowRHS in LHS. cbn [rlo rup] in LHS. unfold meets_rowcut. rewrite LHS.
    rewrite LB, UB. unfold above, below. tauto.
Qed.
Print Assumptions sparse_exact.

(** No pool: no cuts, in both formats. *)
Theorem no_pool : convertCutsToSparseCuts None = Some [] /\ forall n, convertCutsToDenseCuts None n = Some [].
Proof. split; reflexivity. Qed.
Print Assumptions no_pool.

Lemma set_list_length {A} (l : list A) i v : length (set_list l i v) = length l.
Proof. revert i; induction l as [|x l IH]; intros [|i]; cbn [set_list length]; congruence. Qed.
Lemma set_list_nth {A} (l : list A) i v j d : (i < length l)%nat -> nth j (set_list l i v) d = if Nat.eqb j i then v else nth j l d.
Proof.
  revert i j; induction l as [|x l IH]; intros [|i] [|j] H; cbn [set_list nth length Nat.eqb] in *; try lia; try reflexivity.
  apply IH. lia.
Qed.
(** The value a coefficient takes in the dense format. *)
Definition truncated (q : Q) (z : Z) : Prop := z = Z.quot (Qnum q) (Zpos (Qden q)) /\ (- 2 ^ 31 <= z < 2 ^ 31)%Z.
Lemma to_int_trunc_iff q z : to_int_trunc q = Some z <-> truncated q z.
Proof.
  unfold to_int_trunc, truncated. destruct (Z.leb_spec (-2^31) (Z.quot (Qnum q) (Zpos (Qden q)))), (Z.ltb_spec (Z.quot (Qnum q) (Zpos (Qden q))) (2^31));
    cbn [andb]; split; intro K; try discriminate; try (injection K as <-); try (destruct K as [-> K]); try lia; auto.
Qed.
Lemma fill_spec : forall v acc l, dense_fill v acc = Some l -> NoDup (map fst v) ->
  length l = length acc /\ (forall i q, In (i, q) v -> (i < length acc)%nat /\ exists z, truncated q z /\ nth i l 0 = inject_Z z) /\
  (forall j, ~ In j (map fst v) -> nth j l 0 = nth j acc 0).
Proof.
  induction v as [|[i q] v IH]; intros acc l H ND; cbn [dense_fill] in H.
  - injection H as <-. split; [reflexivity|]. split; [intros ? ? []|reflexivity].
  - destruct (Nat.ltb_spec i (length acc)) as [L|]; [|discriminate]. destruct (to_int_trunc q) as [z|] eqn:T; [|discriminate].
    cbn [map fst] in ND. apply NoDup_cons_iff in ND. destruct ND as [N1 N2]. destruct (IH _ _ H N2) as (A & B & C).
    rewrite set_list_length in A, B. split; [exact A|]. split.
    + intros i' q' [E|I]; [injection E as <- <-|exact (B _ _ I)]. split; [exact L|]. exists z. split; [apply to_int_trunc_iff, T|].
      rewrite (C i N1), set_list_nth by exact L. rewrite Nat.eqb_refl. reflexivity.
    + intros j NJ. cbn [map fst In] in NJ. rewrite C by tauto. rewrite set_list_nth by exact L. destruct (Nat.eqb_spec j i); [subst; tauto|reflexivity].
Qed.
Lemma pval_notin v i : ~ In i (map fst v) -> pval v i == 0.
Proof.
  induction v as [|e v IH]; intro H; [rewrite pval_nil; reflexivity|]. cbn [map In] in H. rewrite pval_cons, IH by tauto.
  destruct (Nat.eqb_spec (fst e) i); [tauto|ring].
Qed.
Lemma pdot_pval v x n : (forall i, In i (map fst v) -> (i < n)%nat) -> pdot v x == Qsumf (fun j => pval v j * x j) (seq 0 n).
Proof.
  induction v as [|e v IH]; intro H.
  - rewrite pdot_nil. rewrite (Qsumf_ext _ (fun _ => 0)), Qsumf_zero; [reflexivity|]. intros j _. rewrite pval_nil. ring.
  - rewrite pdot_cons, IH by (intros i I; apply H; right; exact I).
    assert (E : Qsumf (fun j => pval (e :: v) j * x j) (seq 0 n) ==
                Qsumf (fun j => (if Nat.eqb (fst e) j then snd e else 0) * x j + pval v j * x j) (seq 0 n))
      by (apply Qsumf_ext; intros j _; rewrite pval_cons; ring).
    rewrite E, Qsumf_plus. apply Qplus_comp; [|reflexivity].
    assert (G : forall m a, Qsumf (fun j => (if Nat.eqb (fst e) j then snd e else 0) * x j) (seq a m) ==
                            (if Nat.leb a (fst e) && Nat.ltb (fst e) (a + m) then snd e * x (fst e) else 0)).
    { induction m as [|m IHm]; intro a; cbn [seq].
      - change (Qsumf _ []) with 0. destruct (Nat.leb_spec a (fst e)), (Nat.ltb_spec (fst e) (a + 0)); cbn [andb]; try lia; reflexivity.
      - rewrite Qsumf_cons, IHm. destruct (Nat.eqb_spec (fst e) a) as [->|N].
        + destruct (Nat.leb_spec (S a) a), (Nat.leb_spec a a), (Nat.ltb_spec a (a + S m)); cbn [andb]; try lia; ring.
        + destruct (Nat.leb_spec (S a) (fst e)), (Nat.leb_spec a (fst e)), (Nat.ltb_spec (fst e) (S a + m)), (Nat.ltb_spec (fst e) (a + S m));
            cbn [andb]; try lia; ring. }
    rewrite G. pose proof (H (fst e) (or_introl eq_refl)). destruct (Nat.ltb_spec (fst e) (0 + n)); [|lia]. cbn [Nat.leb andb]. reflexivity.
Qed.

(** Dense cuts, exactly when they are right: the conversion of a cut with distinct columns keeps every
    coefficient exactly when all of them are integers (of type int). *)
Theorem dense_exact_iff : forall p n l, convertCutsToDenseCuts (Some p) n = Some l ->
  Forall2 (fun c d => NoDup (map fst (oc_row c)) -> length (dc_coeff d) = n /\
     (forall b, oc_ub c = Some b -> dc_rhs d = b) /\ (forall b, oc_ub c = None -> oc_lb c = Some b -> dc_rhs d = b) /\
     ((forall j, nth j (dc_coeff d) 0 == pval (oc_row c) j) <-> (forall i q, In (i, q) (oc_row c) -> exists z, q == inject_Z z)) /\
     ((forall i q, In (i, q) (oc_row c) -> exists z, q == inject_Z z) -> forall x, dense_lhs d x == pdot (oc_row c) x))
    (op_rows p) l.
Proof.
  intros p n l H. apply with_rows_spec in H. destruct H as [_ H]. induction H as [|c d r l' E H IH]; constructor; [|exact IH].
  intro ND. destruct (dense_fill (oc_row c) (repeat 0 n)) as [v|] eqn:F; [|discriminate]. cbn [option_map] in E. injection E as <-.
  destruct (fill_spec _ _ _ F ND) as (L & V & O). rewrite repeat_length in L, V. cbn [dc_coeff dc_rhs].
  split; [exact L|]. unfold oc_rhs, rowRHS. cbn [rlo rup]. split; [intros b ->; destruct (oc_lb c); reflexivity|]. split; [intros b -> ->; reflexivity|].
  assert (R : forall q z, truncated q z -> (exists z', q == inject_Z z') -> inject_Z z == q).
  { intros q z [-> _] [z' E]. assert (N : (Qnum q = z' * Zpos (Qden q))%Z) by (unfold Qeq in E; cbn [inject_Z Qnum Qden] in E; lia).
    symmetry. rewrite E at 1. rewrite N, Z.quot_mul by discriminate. reflexivity. }
  assert (ZR : forall j, nth j (repeat 0 n) 0 = 0) by (intro j; clear; revert j; induction n; intros [|j]; cbn [repeat nth]; auto).
  assert (OK : (forall i q, In (i, q) (oc_row c) -> exists z, q == inject_Z z) -> forall j, nth j v 0 == pval (oc_row c) j).
  { intros I j. destruct (in_dec Nat.eq_dec j (map fst (oc_row c))) as [Y|N].
    - apply in_map_iff in Y. destruct Y as ([i q] & <- & Y). cbn [fst]. rewrite (pval_in _ _ _ ND Y).
      destruct (V _ _ Y) as (_ & z & T & ->). exact (R _ _ T (I _ _ Y)).
    - rewrite (O _ N), ZR, pval_notin by exact N. reflexivity. }
  split.
  - split; [|exact OK]. intros K i q I. destruct (V _ _ I) as (_ & z & _ & E). exists z. rewrite <- E, K. symmetry. apply (pval_in _ _ _ ND I).
  - intros I x. unfold dense_lhs. cbn [dc_coeff]. rewrite L. rewrite (pdot_pval _ _ n).
    + apply Qsumf_ext. intros j _. rewrite (OK I j). reflexivity.
    + intros i J. apply in_map_iff in J. destruct J as ([i' q] & <- & J). exact (proj1 (V _ _ J)).
Qed.
Print Assumptions dense_exact_iff.

(** Example: 2 x0 - 3 x2 >= 1 in both formats. *)
Definition excut : orowcut := {| oc_row := [(0%nat, 2); (2%nat, -(3))]; oc_lb := Some 1; oc_ub := None |}.
Example formats_meet : NoDup (map fst (oc_row excut)) /\
  convertCutsToSparseCuts (Some {| op_rows := [excut]; op_ncols := 0 |}) =
    Some [{| sc_num := 2; sc_index := [0; 2]%nat; sc_coeff := [2; -(3)]; sc_rhs := 1 |}] /\
  convertCutsToDenseCuts (Some {| op_rows := [excut]; op_ncols := 0 |}) 3 =
    Some [{| dc_coeff := [inject_Z 2; 0; inject_Z (-3)]; dc_rhs := 1 |}].
Proof. split; [repeat constructor; cbn; intuition congruence|]. split; reflexivity. Qed.

(** Refuted for dense cuts: coefficients are cut off to integers; from a cut satisfied by every 0-1 point
    except the origin comes one that no point satisfies. *)
Theorem dense_truncates_refuted : exists c d n, convertCutsToDenseCuts (Some {| op_rows := [c]; op_ncols := 0 |}) n = Some [d] /\
  (exists x, meets_rowcut c x) /\ oc_ub c = None /\ forall x, ~ dc_rhs d <= dense_lhs d x.
Proof.
  exists {| oc_row := [(0%nat, 9 # 10); (1%nat, 9 # 10)]; oc_lb := Some (9 # 10); oc_ub := None |}.
  eexists. exists 2%nat. split; [vm_compute; reflexivity|]. split.
  - exists (fun _ => 1). split; [vm_compute; discriminate|exact I].
  - split; [reflexivity|]. intros x. unfold dense_lhs. cbn [dc_rhs dc_coeff length seq nth]. rewrite !Qsumf_cons. change (Qsumf _ []) with 0.
    change (0 # 1) with 0. intro H. cbn [nth] in H. rewrite !Qmult_0_l in H. revert H. vm_compute. intro H. apply H. reflexivity.
Qed.
Print Assumptions dense_truncates_refuted.

(** Refuted for both: the direction is not recorded; a "<=" cut and a ">=" cut give the same output. *)
Theorem direction_lost_refuted : exists c1 c2 x, meets_rowcut c1 x /\ ~ meets_rowcut c2 x /\
  (let pool c := Some {| op_rows := [c]; op_ncols := 0 |} in
   convertCutsToSparseCuts (pool c1) = convertCutsToSparseCuts (pool c2) /\
   (forall n, convertCutsToDenseCuts (pool c1) n = convertCutsToDenseCuts (pool c2) n)).
Proof.
  exists {| oc_row := [(0%nat, 1)]; oc_lb := None; oc_ub := Some 1 |}, {| oc_row := [(0%nat, 1)]; oc_lb := Some 1; oc_ub := None |}, (fun _ => 0).
  split; [split; [exact I|vm_compute; discriminate]|]. split; [intros [H _]; revert H; vm_compute; intro H; apply H; reflexivity|].
  split; reflexivity.
Qed.
Print Assumptions direction_lost_refuted.

(** Refuted for pools that also hold column cuts (sizeCuts counts them): the loop reads row cuts that do
    not exist. *)
Theorem column_cuts_refuted : forall rows k n, convertCutsToSparseCuts (Some {| op_rows := rows; op_ncols := S k |}) = None /\
  convertCutsToDenseCuts (Some {| op_rows := rows; op_ncols := S k |}) n = None.
Proof. split; reflexivity. Qed.
Print Assumptions column_cuts_refuted.
