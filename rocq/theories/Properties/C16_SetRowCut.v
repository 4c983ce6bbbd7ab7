(** C16: the row cut built from a coefficient vector. *)
From Verif Require Import Prelude Model.Tolerance Model.LP Model.NBSpace Model.CutHelper Spec.LPSpec Spec.NBSpec
  Proofs.ToleranceP Proofs.CutHelperP.

Lemma combine_seq_in (l : list Q) : forall lo i q,
  In (i, q) (combine (seq lo (length l)) l) <-> (lo <= i < lo + length l)%nat /\ nth (i - lo) l 0 = q.
Proof.
  induction l as [|a l IH]; intros lo i q; cbn [length seq combine In].
  - split; [intros []|intros [H _]; lia].
  - rewrite IH. split.
    + intros [E|[H1 H2]].
      * inversion E; subst. rewrite Nat.sub_diag. split; [lia|reflexivity].
      * split; [lia|]. replace (i - lo)%nat with (S (i - S lo)) by lia. exact H2.
    + intros [H1 H2]. destruct (Nat.eq_dec i lo) as [->|N].
      * left. rewrite Nat.sub_diag in H2. cbn in H2. congruence.
      * right. split; [lia|]. replace (i - lo)%nat with (S (i - S lo)) in H2 by lia. exact H2.
Qed.

(** Entries: exactly the positions whose coefficient is at least EPS in magnitude, under the name
    given by the index list (or their own position when there is none), right-hand side as given. *)
Theorem set_row_cut_entries :
  forall nz coeff rhs EPS e,
  In e (crow (setOsiRowCut nz coeff rhs EPS)) <->
  exists i, (i < length coeff)%nat /\ EPS <= Qabs (nth i coeff 0) /\
    e = (match nz with [] => i | _ => nth i nz O end, nth i coeff 0).
Proof.
  intros nz coeff rhs EPS e. unfold setOsiRowCut. cbn [crow]. rewrite in_map_iff. split.
  - intros ([i q] & E & H). apply filter_In in H. destruct H as [H1 H2]. cbn [snd fst] in *.
    apply combine_seq_in in H1. destruct H1 as [H1 H3]. rewrite Nat.sub_0_r in H3.
    exists i. split; [lia|]. split; [|subst; symmetry; exact E || reflexivity].
    rewrite H3. apply isZero_false_iff, negb_true_iff, H2.
  - intros (i & H1 & H2 & ->). exists (i, nth i coeff 0). split; [reflexivity|].
    apply filter_In. split; [apply combine_seq_in; rewrite Nat.sub_0_r; split; [lia|reflexivity]|].
    cbn [snd]. apply negb_true_iff, isZero_false_iff, H2.
Qed.
Print Assumptions set_row_cut_entries.

Lemma filter_sorted (f : nat * Q -> bool) : forall v lo, psorted_from lo v -> psorted_from lo (filter f v).
Proof.
  induction v as [|e v IH]; intros lo H; [exact I|]. destruct H as [H1 H2]. cbn [filter].
  destruct (f e); [split; [exact H1|apply IH, H2]|].
  apply (psorted_from_weaken (S (fst e))); [lia|apply IH, H2].
Qed.
Lemma combine_sorted : forall (l : list Q) lo, psorted_from lo (combine (seq lo (length l)) l).
Proof. induction l as [|a l IH]; intro lo; [exact I|]. split; [apply le_n|apply IH]. Qed.

Lemma pval_filter_combine EPS (l : list Q) : forall lo i,
  pval (filter (fun p => negb (isZero (snd p) EPS)) (combine (seq lo (length l)) l)) (lo + i)
  == (if isZero (nth i l 0) EPS then 0 else nth i l 0).
Proof.
  induction l as [|a l IH]; intros lo i; cbn [length seq combine filter snd nth].
  - destruct i; cbn [nth]; rewrite pval_nil; destruct (isZero 0 EPS); reflexivity.
  - destruct i as [|i]; cbn [nth].
    + rewrite Nat.add_0_r.
      assert (Z : pval (filter (fun p => negb (isZero (snd p) EPS)) (combine (seq (S lo) (length l)) l)) lo == 0).
      { apply (pval_below (S lo)); [apply filter_sorted, combine_sorted|lia]. }
      destruct (isZero a EPS); cbn [negb]; [exact Z|]. rewrite pval_cons. cbn [fst snd]. rewrite Nat.eqb_refl, Z. ring.
    + destruct (isZero a EPS); cbn [negb]; [|rewrite pval_cons; cbn [fst snd]; destruct (Nat.eqb_spec lo (lo + S i)); [lia|rewrite Qplus_0_l]];
        replace (lo + S i)%nat with (S lo + i)%nat by lia; apply IH.
Qed.

(** Without renaming: the coefficient of every variable, sorted indices, and the right-hand side. *)
Theorem set_row_cut_dense :
  forall coeff rhs EPS i,
  let c := setOsiRowCut [] coeff rhs EPS in
  pval (crow c) i == (if Qltb (Qabs (nth i coeff 0)) EPS then 0 else nth i coeff 0) /\
  psorted (crow c) /\ crhs c = rhs.
Proof.
  intros coeff rhs EPS i c. unfold c, setOsiRowCut. cbn [crow crhs].
  rewrite (map_ext _ (fun p => p)) by (intros []; reflexivity). rewrite map_id.
  split; [|split; [apply filter_sorted, combine_sorted|reflexivity]].
  rewrite (pval_filter_combine EPS coeff 0 i). unfold isZero, isVal.
  assert (E : Qltb (Qabs (nth i coeff 0 - 0)) EPS = Qltb (Qabs (nth i coeff 0)) EPS).
  { apply Qltb_comp; [|reflexivity]. apply Qabs_wd. ring. }
  rewrite E. reflexivity.
Qed.
Print Assumptions set_row_cut_dense.

(** With renaming through a strictly increasing index list of the same length (PRLP columns):
    position [i] carries its coefficient under name [nth i nz], all other names are absent. *)
Theorem set_row_cut_renamed :
  forall nz coeff rhs EPS,
  increasing_from 0 nz -> length nz = length coeff -> nz <> [] ->
  let c := setOsiRowCut nz coeff rhs EPS in
  psorted (crow c) /\ crhs c = rhs /\
  (forall i, (i < length nz)%nat ->
     pval (crow c) (nth i nz O) == (if Qltb (Qabs (nth i coeff 0)) EPS then 0 else nth i coeff 0)) /\
  (forall j, ~ In j nz -> pval (crow c) j == 0).
Proof.
  intros nz coeff rhs EPS Hi HL Hne c. unfold c, setOsiRowCut. cbn [crow crhs].
  set (nm := fun i => match nz with [] => i | _ => nth i nz O end).
  assert (Hnm : forall i, nm i = nth i nz O) by (intro i; unfold nm; destruct nz; [congruence|reflexivity]).
  rewrite (map_ext _ (fun p => (nth (fst p) nz O, snd p))).
  2:{ intros [i q]. cbn [fst snd]. destruct nz; [congruence|reflexivity]. }
  clear nm Hnm c.
  assert (Gen : forall nz pre (l : list Q) lo, increasing_from lo nz -> length nz = length l ->
    let w := map (fun p => (nth (fst p) (pre ++ nz) O, snd p))
       (filter (fun p => negb (isZero (snd p) EPS)) (combine (seq (length pre) (length l)) l)) in
    psorted_from lo w /\
    (forall i, (i < length nz)%nat -> pval w (nth i nz O) == (if Qltb (Qabs (nth i l 0)) EPS then 0 else nth i l 0)) /\
    (forall j, ~ In j nz -> pval w j == 0)).
  { clear. induction nz as [|a nz IH]; intros pre l lo Hi HL.
    - destruct l; [|discriminate]. cbn. split; [exact I|]. split; [intros i Hl; lia|reflexivity].
    - destruct l as [|q l]; [discriminate|]. destruct Hi as [H1 H2]. cbn [length] in HL.
      specialize (IH (pre ++ [a]) l (S a) H2 ltac:(lia)).
      rewrite <- app_assoc in IH. cbn [app] in IH. rewrite app_length in IH. cbn [length] in IH.
      replace (length pre + 1)%nat with (S (length pre)) in IH by lia.
      cbv zeta in IH |- *. destruct IH as (I1 & I2 & I3).
      cbn [length seq combine filter snd].
      set (w := map (fun p => (nth (fst p) (pre ++ a :: nz) O, snd p))
         (filter (fun p => negb (isZero (snd p) EPS)) (combine (seq (S (length pre)) (length l)) l))) in *.
      assert (Zq : isZero q EPS = Qltb (Qabs q) EPS).
      { unfold isZero, isVal. apply Qltb_comp; [|reflexivity]. apply Qabs_wd. ring. }
      assert (Ea : nth (length pre) (pre ++ a :: nz) O = a) by apply nth_middle.
      split; [|split].
      + destruct (isZero q EPS); cbn [negb map]; [apply (psorted_from_weaken (S a)); [lia|exact I1]|].
        cbn [fst snd]. rewrite Ea. split; [exact H1|exact I1].
      + intros [|i] Hl; cbn [nth].
        * rewrite <- Zq. pose proof (pval_below (S a) w a I1 (Nat.lt_succ_diag_r a)) as Z.
          destruct (isZero q EPS); cbn [negb map]; [exact Z|]. fold w. rewrite pval_cons. cbn [fst snd].
          rewrite Ea, Nat.eqb_refl, Z. ring.
        * cbn [length] in Hl. rewrite <- (I2 i) by lia.
          assert (Na : nth i nz O <> a).
          { intro E. clear - H2 E Hl. assert (HI : In a nz) by (rewrite <- E; apply nth_In; lia).
            assert (B : forall l lo, increasing_from lo l -> forall z, In z l -> (lo <= z)%nat).
            { induction l as [|b l IH]; intros lo Hi z Hz; [destruct Hz|]. destruct Hi as [A B].
              destruct Hz as [->|Hz]; [exact A|]. specialize (IH _ B _ Hz). lia. }
            specialize (B _ _ H2 _ HI). lia. }
          destruct (isZero q EPS); cbn [negb map]; [reflexivity|]. fold w. rewrite pval_cons. cbn [fst snd].
          rewrite Ea. destruct (Nat.eqb_spec a (nth i nz O)); [congruence|ring].
      + intros j Hj. assert (Nj : ~ In j nz) by (intro; apply Hj; right; assumption).
        destruct (isZero q EPS); cbn [negb map]; [apply I3, Nj|]. fold w. rewrite pval_cons. cbn [fst snd].
        rewrite Ea. destruct (Nat.eqb_spec a j) as [->|N]; [exfalso; apply Hj; left; reflexivity|].
        rewrite (I3 j Nj). ring. }
  destruct (Gen nz [] coeff O Hi HL) as (G1 & G2 & G3). cbn [length app] in G1, G2, G3.
  split; [exact G1|]. split; [reflexivity|]. split; assumption.
Qed.
Print Assumptions set_row_cut_renamed.

(** The function used inside the nonbasic-space conversion (C01, C02) is this same one. *)
Theorem set_row_cut_same_model :
  forall nz n (f : nat -> Q) rhs EPS,
  NBSpace.setOsiRowCut nz n f rhs EPS = setOsiRowCut nz (map f (seq 0 n)) rhs EPS.
Proof.
  intros nz n f rhs EPS. unfold NBSpace.setOsiRowCut, setOsiRowCut. f_equal. rewrite map_length, seq_length.
  assert (Gen : forall l, flat_map (fun i => if isZero (f i) EPS then [] else [(match nz with [] => i | _ => nth i nz O end, f i)]) l
    = map (fun p => (match nz with [] => fst p | _ => nth (fst p) nz O end, snd p))
        (filter (fun p => negb (isZero (snd p) EPS)) (combine l (map f l)))).
  { induction l as [|i l IH]; [reflexivity|]. cbn [flat_map map combine filter snd]. rewrite IH.
    destruct (isZero (f i) EPS); reflexivity. }
  apply Gen.
Qed.
Print Assumptions set_row_cut_same_model.

Example set_row_cut_example :
  crow (setOsiRowCut [1;4;7]%nat [2; 0; -(3)] 5 (1#1000)) = [(1%nat,2);(7%nat,-(3))] /\
  increasing_from 0 [1;4;7]%nat.
Proof. split; [vm_compute; reflexivity|cbn; lia]. Qed.
