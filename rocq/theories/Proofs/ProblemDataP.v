(** Lemmas about getProblemData. *)
From Verif Require Import Prelude Model.Tolerance Model.LP Model.BasisStatus Model.ProblemData
  Spec.LPSpec Spec.NBSpec Spec.BasisSpec Proofs.ParallelP.
From Coq Require Import Permutation.

Definition nbv (b : basisinfo) (n v : nat) : bool := negb (isBasicVar b n v).
Definition nbs (b : basisinfo) (n k : nat) : list nat := filter (nbv b n) (seq 0 k).

Lemma nbs_S b n k : nbs b n (S k) = nbs b n k ++ (if nbv b n k then [k] else []).
Proof.
  unfold nbs. rewrite seq_S, filter_app. cbn [filter plus]. destruct (nbv b n k); reflexivity.
Qed.

(** State of the loop after variables 0..k-1. *)
Record pdinv (P : lp) (b : basisinfo) (B : list nat) (orig : option probdata) (k : nat) (st : pdstate) : Prop := {
  i_nb : s_NB st = nbs b (ncols P) k;
  i_done : forall v, (v < k)%nat -> nbv b (ncols P) v = true ->
             s_row st v = (-1 - Z.of_nat (length (nbs b (ncols P) v)))%Z;
  i_todo : forall v, (k <= v)%nat -> nbv b (ncols P) v = true -> s_row st v = (-1)%Z;
  i_row : forall r, (ncols P + r < k)%nat -> s_row st (nth r B O) = Z.of_nat r;
  i_orig : forall o r c, orig = Some o -> (ncols P + r < k)%nat ->
             getVarNBIndex o (nth r B O) = Z.of_nat c -> s_orig st c = Z.of_nat r;
  i_orig' : forall o c, orig = Some o -> s_orig st c = (-1)%Z \/
             exists r, (ncols P + r < k)%nat /\ s_orig st c = Z.of_nat r /\
                       getVarNBIndex o (nth r B O) = Z.of_nat c }.

(** Two basic variables of the new basis do not share an original nonbasic index. *)
Definition orig_inj (B : list nat) (orig : option probdata) : Prop :=
  forall o r r' c, orig = Some o -> (r < length B)%nat -> (r' < length B)%nat ->
    getVarNBIndex o (nth r B O) = Z.of_nat c -> getVarNBIndex o (nth r' B O) = Z.of_nat c -> r = r'.

Lemma updz_eq f j v : updz f j v j = v.
Proof. unfold updz. rewrite Nat.eqb_refl. reflexivity. Qed.
Lemma updz_ne f j v k : k <> j -> updz f j v k = f k.
Proof. unfold updz. intro H. apply Nat.eqb_neq in H. rewrite H. reflexivity. Qed.

Section Loop.
  Variables (P : lp) (b : basisinfo) (B : list nat) (orig : option probdata).
  Let n := ncols P.
  Hypothesis HB : basics_of b n (nrows P) B.
  Hypothesis HO : orig_inj B orig.

  Lemma basic_nb r : (r < nrows P)%nat -> nbv b n (nth r B O) = false.
  Proof.
    intro Hr. destruct HB as (L & ND & M).
    assert (I : In (nth r B O) B) by (apply nth_In; lia).
    apply M in I. unfold nbv. rewrite (proj2 I). reflexivity.
  Qed.

  Lemma step_inv k st st' : (k < n + nrows P)%nat -> pdinv P b B orig k st ->
    pd_step P b B orig st k = Some st' -> pdinv P b B orig (S k) st'.
  Proof.
    intros Hk [I1 I2 I3 I4 I5 I6]. unfold pd_step.
    set (st1 := if Nat.ltb k (ncols P) then _ else _).
    (* the first half of the body *)
    assert (A : s_NB st1 = nbs b n k /\
      (forall v, nbv b n v = true -> s_row st1 v = s_row st v) /\
      (forall r, (n + r < S k)%nat -> s_row st1 (nth r B O) = Z.of_nat r) /\
      (forall o r c, orig = Some o -> (n + r < S k)%nat ->
             getVarNBIndex o (nth r B O) = Z.of_nat c -> s_orig st1 c = Z.of_nat r) /\
      (forall o c, orig = Some o -> s_orig st1 c = (-1)%Z \/
             exists r, (n + r < S k)%nat /\ s_orig st1 c = Z.of_nat r /\
                       getVarNBIndex o (nth r B O) = Z.of_nat c)).
    { subst st1. fold n. destruct (Nat.ltb_spec k n) as [C|C].
      - cbn [s_NB s_row s_orig]. split; [exact I1|]. split; [reflexivity|].
        split; [intros r Hr; lia|]. split; [intros o r c _ Hr; lia|].
        intros o c Ho. destruct (I6 o c Ho) as [E|(r & H1 & H2)]; [left; exact E|right].
        exists r. split; [fold n in H1; lia|exact H2].
      - assert (Rk : (k - n < nrows P)%nat) by lia.
        destruct HB as (LB & NDB & MB).
        cbn [s_NB s_row s_orig]. split; [exact I1|]. split; [|split; [|split]].
        + intros v Hv. apply updz_ne. intro E. subst v. rewrite basic_nb in Hv by exact Rk. discriminate.
        + intros r Hr. destruct (Nat.eq_dec r (k - n)) as [->|Nr]; [apply updz_eq|].
          rewrite updz_ne; [apply I4; fold n; lia|].
          intro E. apply Nr. apply (proj1 (NoDup_nth B O) NDB); [lia|lia|exact E].
        + intros o r c Ho Hr Hc. rewrite Ho.
          destruct (Nat.eq_dec r (k - n)) as [->|Nr].
          * rewrite Hc. destruct (Z.leb_spec 0 (Z.of_nat c)); [|lia]. rewrite Nat2Z.id. apply updz_eq.
          * destruct (Z.leb_spec 0 (getVarNBIndex o (nth (k - n) B O))) as [G|G].
            -- rewrite updz_ne; [apply (I5 o r c Ho); [fold n; lia|exact Hc]|].
               intro E. apply Nr. apply (HO o r (k - n)%nat c Ho); [lia|lia|exact Hc|].
               rewrite E. rewrite Z2Nat.id by exact G. reflexivity.
            -- apply (I5 o r c Ho); [fold n; lia|exact Hc].
        + intros o c Ho. rewrite Ho.
          destruct (Z.leb_spec 0 (getVarNBIndex o (nth (k - n) B O))) as [G|G].
          * destruct (Nat.eq_dec c (Z.to_nat (getVarNBIndex o (nth (k - n) B O)))) as [->|Nc].
            -- right. exists (k - n)%nat. split; [lia|]. split; [apply updz_eq|].
               rewrite Z2Nat.id by exact G. reflexivity.
            -- rewrite updz_ne by exact Nc. destruct (I6 o c Ho) as [E|(r & H1 & H2)]; [left; exact E|right].
               exists r. split; [fold n in H1; lia|exact H2].
          * destruct (I6 o c Ho) as [E|(r & H1 & H2)]; [left; exact E|right].
            exists r. split; [fold n in H1; lia|exact H2]. }
    clearbody st1. destruct A as (A1 & A2 & A3 & A4 & A5).
    fold n. fold (nbv b n k). destruct (nbv b n k) eqn:Ek.
    - intro E. injection E as E. subst st'. constructor; cbn [s_NB s_row s_orig]; fold n.
      + rewrite A1, nbs_S, Ek. reflexivity.
      + intros v Hv Nv. destruct (Nat.eq_dec v k) as [->|Ne].
        * rewrite updz_eq, A2, I3, A1 by (exact Nv || fold n; assumption || lia). reflexivity.
        * rewrite updz_ne, A2 by assumption. apply I2; [lia|exact Nv].
      + intros v Hv Nv. rewrite updz_ne by lia. rewrite A2 by exact Nv. apply I3; [lia|exact Nv].
      + intros r Hr. rewrite updz_ne; [apply A3; exact Hr|].
        intro E. rewrite <- E, basic_nb in Ek by lia. discriminate.
      + exact A4.
      + exact A5.
    - destruct (Nat.leb n k && negb (Nat.eqb (nth (k - n) B O) k)); [discriminate|].
      intro E. injection E as E. subst st'. constructor; fold n.
      + rewrite A1, nbs_S, Ek, app_nil_r. reflexivity.
      + intros v Hv Nv. destruct (Nat.eq_dec v k) as [->|Ne]; [congruence|].
        rewrite A2 by exact Nv. apply I2; [lia|exact Nv].
      + intros v Hv Nv. rewrite A2 by exact Nv. apply I3; [lia|exact Nv].
      + exact A3.
      + exact A4.
      + exact A5.
  Qed.

  Lemma loop_inv m k st st' : (k + m = n + nrows P)%nat -> pdinv P b B orig k st ->
    pd_loop P b B orig st (seq k m) = Some st' -> pdinv P b B orig (n + nrows P) st'.
  Proof.
    revert k st. induction m as [|m IH]; intros k st Hkm I; cbn [seq pd_loop].
    - intro E. injection E as <-. replace (n + nrows P)%nat with k by lia. exact I.
    - destruct (pd_step P b B orig st k) as [s|] eqn:Es; [|discriminate].
      apply IH; [lia|]. apply (step_inv k st s); [lia|exact I|exact Es].
  Qed.
End Loop.

Lemma getPD_inv EPS DIFFEPS P b lpopt B orig pd :
  getProblemData EPS DIFFEPS P b lpopt B orig = Some pd ->
  basics_of b (ncols P) (nrows P) B -> orig_inj B orig ->
  exists st, pdinv P b B orig (ncols P + nrows P) st /\
    pd_NB pd = s_NB st /\ pd_rowOfVar pd = s_row st /\ pd_rowOfOrig pd = s_orig st /\
    pd_size pd = (ncols P + nrows P)%nat /\ pd_basic pd = B /\ pd_ncols pd = ncols P /\ pd_lp_opt pd = lpopt.
Proof.
  unfold getProblemData. intros H HB HO.
  destruct (minAbsCoeff _) as [mn|]; [|discriminate]. destruct (maxAbsCoeff _) as [mx|]; [|discriminate].
  cbv zeta in H. match type of H with context [pd_loop _ _ _ _ ?s _] => set (st0 := s) in H end.
  destruct (pd_loop P b B orig st0 _) as [st|] eqn:E; [|discriminate].
  destruct (redcost_loop _ _ _ _) as [[ds w]|]; [|discriminate]. injection H as <-.
  exists st. cbn [pd_NB pd_rowOfVar pd_rowOfOrig pd_size pd_basic pd_ncols pd_lp_opt].
  split; [|repeat split].
  apply (loop_inv P b B orig HB HO (ncols P + nrows P) 0 st0); [lia| |exact E].
  subst st0. constructor; cbn [s_NB s_row s_orig].
  - reflexivity.
  - intros v Hv. lia.
  - reflexivity.
  - intros r Hr. lia.
  - intros o r c _ Hr. lia.
  - intros o c _. left. reflexivity.
Qed.

Lemma nbs_length b n m B : basics_of b n m B -> length (nbs b n (n + m)) = n.
Proof.
  intros (L & ND & M).
  assert (E : forall (f : nat -> bool) l, (length (filter f l) + length (filter (fun x => negb (f x)) l) = length l)%nat).
  { intros f l. induction l as [|a l IH]; [reflexivity|]. cbn [filter]. destruct (f a); cbn [length negb]; lia. }
  specialize (E (isBasicVar b n) (seq 0 (n + m))). rewrite seq_length in E.
  assert (Pm : Permutation (filter (isBasicVar b n) (seq 0 (n + m))) B).
  { apply NoDup_Permutation.
    - apply NoDup_filter, seq_NoDup.
    - exact ND.
    - intro x. rewrite filter_In, in_seq, M. split; intros [H1 H2]; (split; [lia|exact H2]). }
  apply Permutation_length in Pm. unfold nbs.
  change (filter (nbv b n)) with (filter (fun x => negb (isBasicVar b n x))).
  rewrite Pm in E. rewrite L in E. lia.
Qed.

Lemma nbs_nth b n k v : (v < k)%nat -> nbv b n v = true ->
  nth (length (nbs b n v)) (nbs b n k) O = v.
Proof.
  intros Hv Nv. replace k with (v + (k - v))%nat by lia.
  unfold nbs at 2. rewrite seq_app, filter_app, app_nth2; [|unfold nbs; lia].
  fold (nbs b n v). rewrite Nat.sub_diag. destruct (k - v)%nat eqn:E; [lia|].
  cbn [seq filter plus]. rewrite Nv. reflexivity.
Qed.

Lemma nbs_lt b n k v : (v < k)%nat -> nbv b n v = true -> (length (nbs b n v) < length (nbs b n k))%nat.
Proof.
  intros Hv Nv. replace k with (v + (k - v))%nat by lia.
  unfold nbs at 2. rewrite seq_app, filter_app, app_length.
  fold (nbs b n v). destruct (k - v)%nat eqn:E; [lia|].
  cbn [seq filter plus]. rewrite Nv. cbn [length]. lia.
Qed.

Lemma nbs_index b n k c : (c < length (nbs b n k))%nat ->
  let v := nth c (nbs b n k) O in (v < k)%nat /\ nbv b n v = true /\ length (nbs b n v) = c.
Proof.
  intros Hc v.
  assert (I : In v (nbs b n k)) by (apply nth_In; exact Hc).
  unfold nbs in I. rewrite filter_In, in_seq in I. destruct I as [I Nv].
  split; [lia|]. split; [exact Nv|].
  assert (ND : NoDup (nbs b n k)) by (apply NoDup_filter, seq_NoDup).
  apply (proj1 (NoDup_nth _ O) ND); [|exact Hc|].
  - apply nbs_lt; [lia|exact Nv].
  - apply nbs_nth; [lia|exact Nv].
Qed.

(** ** Reduced costs *)
Lemma redcost_loop_spec DIFFEPS b n NB ds w :
  redcost_loop DIFFEPS b n NB = Some (ds, w) ->
  ds = map (nb_redcost b n) NB /\
  Forall (fun d => - DIFFEPS < d \/ - EPS7 < d) ds /\
  w = length (filter (fun d => Qle_bool d (- EPS7)) ds).
Proof.
  revert ds w. induction NB as [|v r IH]; intros ds w; cbn [redcost_loop].
  - intro E. injection E as <- <-. repeat split. constructor.
  - unfold redcost_check. set (d := nb_redcost b n v).
    destruct (lessThanVal d 0 EPS7) eqn:E1.
    + destruct (lessThanVal d 0 DIFFEPS) eqn:E2; [discriminate|].
      destruct (redcost_loop DIFFEPS b n r) as [[ds' w']|]; [|discriminate].
      intro E. injection E as <- <-. destruct (IH ds' w' eq_refl) as (H1 & H2 & H3).
      unfold lessThanVal in *. qhyps. split; [cbn [map]; fold d; congruence|]. split.
      * constructor; [left; lra|exact H2].
      * cbn [filter]. destruct (Qle_bool d (- EPS7)) eqn:E3; [cbn [length]; lia|qhyps; exfalso; lra].
    + destruct (redcost_loop DIFFEPS b n r) as [[ds' w']|]; [|discriminate].
      intro E. injection E as <- <-. destruct (IH ds' w' eq_refl) as (H1 & H2 & H3).
      unfold lessThanVal in *. qhyps. split; [cbn [map]; fold d; congruence|]. split.
      * constructor; [right; lra|exact H2].
      * cbn [filter]. destruct (Qle_bool d (- EPS7)) eqn:E3; [qhyps; exfalso; lra|exact H3].
Qed.

Lemma redcost_loop_none DIFFEPS b n NB :
  redcost_loop DIFFEPS b n NB = None <->
  Exists (fun v => nb_redcost b n v <= - DIFFEPS /\ nb_redcost b n v <= - EPS7) NB.
Proof.
  induction NB as [|v r IH]; cbn [redcost_loop].
  - split; [discriminate|]. intro H. inversion H.
  - unfold redcost_check. rewrite Exists_cons, <- IH.
    destruct (lessThanVal (nb_redcost b n v) 0 EPS7) eqn:E1;
    [destruct (lessThanVal (nb_redcost b n v) 0 DIFFEPS) eqn:E2|];
    unfold lessThanVal in *; qhyps.
    + split; [|reflexivity]. intros _. left. split; lra.
    + destruct (redcost_loop DIFFEPS b n r) as [[ds' w']|]; split; try discriminate; try tauto.
      intros [[H1 H2]|H]; [lra|discriminate].
    + destruct (redcost_loop DIFFEPS b n r) as [[ds' w']|]; split; try discriminate; try tauto.
      intros [[H1 H2]|H]; [lra|discriminate].
Qed.

Lemma getPD_redcost EPS DIFFEPS P b lpopt B orig pd :
  getProblemData EPS DIFFEPS P b lpopt B orig = Some pd ->
  redcost_loop DIFFEPS b (ncols P) (pd_NB pd) = Some (pd_redcost pd, pd_warnings pd).
Proof.
  unfold getProblemData.
  destruct (minAbsCoeff _) as [mn|]; [|discriminate]. destruct (maxAbsCoeff _) as [mx|]; [|discriminate].
  cbv zeta. destruct (pd_loop _ _ _ _ _ _) as [st|]; [|discriminate].
  destruct (redcost_loop _ _ _ _) as [[ds w]|] eqn:E; [|discriminate]. intro H. injection H as <-. exact E.
Qed.

(** ** When does it exit? *)
Lemma pd_loop_none P b B orig st vars :
  pd_loop P b B orig st vars = None <->
  Exists (fun v => (ncols P <= v)%nat /\ isBasicVar b (ncols P) v = true /\ nth (v - ncols P) B O <> v) vars.
Proof.
  revert st. induction vars as [|v r IH]; intro st; cbn [pd_loop].
  - split; [discriminate|]. intro H. inversion H.
  - rewrite Exists_cons. unfold pd_step.
    destruct (isBasicVar b (ncols P) v) eqn:E1; cbn [negb].
    + destruct (Nat.leb_spec (ncols P) v) as [L|L]; cbn [andb].
      * destruct (Nat.eqb_spec (nth (v - ncols P) B O) v) as [E2|E2]; cbn [negb].
        -- rewrite IH. split; [tauto|]. intros [(_ & _ & H)|H]; [congruence|exact H].
        -- split; [|reflexivity]. intros _. left. auto.
      * rewrite IH. split; [tauto|]. intros [(H & _)|H]; [lia|exact H].
    + rewrite IH. split; [tauto|]. intros [(_ & H & _)|H]; [discriminate|exact H].
Qed.

(** ** Reference values *)
Lemma Qminb_le a b : Qminb a b <= a /\ Qminb a b <= b.
Proof. unfold Qminb. destruct (Qltb_reflect b a); lra. Qed.
Lemma Qmaxb_le a b : a <= Qmaxb a b /\ b <= Qmaxb a b.
Proof. unfold Qmaxb. destruct (Qltb_reflect a b); lra. Qed.
Lemma Qminb_pos a b : 0 < a -> 0 < b -> 0 < Qminb a b.
Proof. unfold Qminb. destruct (Qltb_reflect b a); lra. Qed.

(** [good mm l]: the pair is positive and bounds every value of [l] (nonzero ones from below). *)
Definition good (mm : Q * Q) (l : list Q) : Prop :=
  0 < fst mm /\ 1 <= snd mm /\ fst mm <= 1 /\
  forall a, In a l -> Qabs a <= snd mm /\ (~ a == 0 -> fst mm <= Qabs a).

Lemma Qabs_pos_iff a : ~ a == 0 -> 0 < Qabs a.
Proof. intro H. qabs; lra. Qed.

Lemma good_update mm l a : good mm l -> good (ref_update mm a) (a :: l).
Proof.
  intros (G1 & G2 & G3 & G4). unfold good, ref_update. cbn [fst snd].
  destruct (Qmaxb_le (snd mm) (Qabs a)) as [M1 M2].
  destruct (Qeq_bool a 0) eqn:E; qhyps.
  - repeat split; try lra.
    + destruct H as [<-|H]; [exact M2|]. destruct (G4 a0 H). lra.
    + destruct H as [<-|H]; [intro C; contradiction|]. destruct (G4 a0 H). assumption.
  - destruct (Qminb_le (fst mm) (Qabs a)) as [N1 N2].
    split; [apply Qminb_pos; [exact G1|apply Qabs_pos_iff, E]|].
    split; [lra|]. split; [lra|]. intros c [<-|H].
    + split; [exact M2|]. intros _. exact N2.
    + destruct (G4 c H) as [K1 K2]. split; [lra|]. intro C. specialize (K2 C). lra.
Qed.
Lemma good_bound mm l o : good mm l ->
  good (ref_bound mm o) (match o with Some q => q :: l | None => l end).
Proof. destruct o; [apply good_update|auto]. Qed.
Lemma good_incl mm l l' : incl l' l -> good mm l -> good mm l'.
Proof. intros I (G1 & G2 & G3 & G4). repeat split; try assumption; intros; apply (G4 a); auto. Qed.

Lemma minfold els m : 
  fold_left (fun m e => Qminb m (Qabs e)) els m <= m /\
  (forall e, In e els -> fold_left (fun m e => Qminb m (Qabs e)) els m <= Qabs e) /\
  (fold_left (fun m e => Qminb m (Qabs e)) els m == m \/ exists e, In e els /\ fold_left (fun m e => Qminb m (Qabs e)) els m == Qabs e).
Proof.
  revert m. induction els as [|a r IH]; intro m; cbn [fold_left].
  - split; [lra|]. split; [intros e []|]. left. reflexivity.
  - destruct (IH (Qminb m (Qabs a))) as (H1 & H2 & H3). destruct (Qminb_le m (Qabs a)) as [M1 M2].
    split; [lra|]. split.
    + intros e [<-|He]; [lra|apply H2, He].
    + destruct H3 as [H3|(e & He & H3)].
      * assert (D : Qminb m (Qabs a) = m \/ Qminb m (Qabs a) = Qabs a)
          by (unfold Qminb; destruct (Qltb (Qabs a) m); auto).
        destruct D as [D|D]; rewrite D in *.
        -- left. exact H3.
        -- right. exists a. split; [left; reflexivity|exact H3].
      * right. exists e. split; [right; exact He|exact H3].
Qed.
Lemma maxfold els m : 
  m <= fold_left (fun m e => Qmaxb m (Qabs e)) els m /\
  (forall e, In e els -> Qabs e <= fold_left (fun m e => Qmaxb m (Qabs e)) els m) /\
  (fold_left (fun m e => Qmaxb m (Qabs e)) els m == m \/ exists e, In e els /\ fold_left (fun m e => Qmaxb m (Qabs e)) els m == Qabs e).
Proof.
  revert m. induction els as [|a r IH]; intro m; cbn [fold_left].
  - split; [lra|]. split; [intros e []|]. left. reflexivity.
  - destruct (IH (Qmaxb m (Qabs a))) as (H1 & H2 & H3). destruct (Qmaxb_le m (Qabs a)) as [M1 M2].
    split; [lra|]. split.
    + intros e [<-|He]; [lra|apply H2, He].
    + destruct H3 as [H3|(e & He & H3)].
      * assert (D : Qmaxb m (Qabs a) = m \/ Qmaxb m (Qabs a) = Qabs a)
          by (unfold Qmaxb; destruct (Qltb m (Qabs a)); auto).
        destruct D as [D|D]; rewrite D in *.
        -- left. exact H3.
        -- right. exists a. split; [left; reflexivity|exact H3].
      * right. exists e. split; [right; exact He|exact H3].
Qed.
Lemma minAbs_spec els mn : minAbsCoeff els = Some mn ->
  (forall e, In e els -> mn <= Qabs e) /\ exists e, In e els /\ mn == Qabs e.
Proof.
  destruct els as [|a r]; [discriminate|]. cbn [minAbsCoeff]. intro E. injection E as <-.
  destruct (minfold r (Qabs a)) as (H1 & H2 & H3). split.
  - intros e [<-|He]; [exact H1|apply H2, He].
  - destruct H3 as [H3|(e & He & H3)]; [exists a|exists e]; (split; [cbn; tauto|exact H3]).
Qed.
Lemma maxAbs_spec els mx : maxAbsCoeff els = Some mx ->
  (forall e, In e els -> Qabs e <= mx) /\ exists e, In e els /\ mx == Qabs e.
Proof.
  destruct els as [|a r]; [discriminate|]. cbn [maxAbsCoeff]. intro E. injection E as <-.
  destruct (maxfold r (Qabs a)) as (H1 & H2 & H3). split.
  - intros e [<-|He]; [exact H1|apply H2, He].
  - destruct H3 as [H3|(e & He & H3)]; [exists a|exists e]; (split; [cbn; tauto|exact H3]).
Qed.

(** Reference values contributed by variable [v]. *)
Definition var_refs (P : lp) (v : nat) : list Q :=
  if Nat.ltb v (ncols P)
  then (match cup P v with Some q => [q] | None => [] end) ++ (match clo P v with Some q => [q] | None => [] end)
  else [rowRHS (rows P (v - ncols P))].

Lemma pd_step_good P b B orig st v st' l :
  pd_step P b B orig st v = Some st' -> good (s_min st, s_max st) l ->
  good (s_min st', s_max st') (var_refs P v ++ l).
Proof.
  intros H G. unfold pd_step in H.
  set (st1 := if Nat.ltb v (ncols P) then _ else _) in H.
  assert (A : good (s_min st1, s_max st1) (var_refs P v ++ l)).
  { subst st1. unfold var_refs. destruct (Nat.ltb v (ncols P)); cbn [s_min s_max].
    - rewrite <- surjective_pairing. apply (good_bound _ _ (clo P v)) in G.
      apply (good_bound _ _ (cup P v)) in G. revert G. apply good_incl.
      intros a Ha. destruct (cup P v), (clo P v); cbn in *; tauto.
    - rewrite <- surjective_pairing. apply good_update, G. }
  destruct (isBasicVar b (ncols P) v); cbn [negb] in H.
  - destruct (Nat.leb (ncols P) v && _); [discriminate|]. injection H as <-. exact A.
  - injection H as <-. exact A.
Qed.

Lemma pd_loop_good P b B orig vars : forall st st' l,
  pd_loop P b B orig st vars = Some st' -> good (s_min st, s_max st) l ->
  good (s_min st', s_max st') (flat_map (var_refs P) vars ++ l).
Proof.
  induction vars as [|v r IH]; intros st st' l; cbn [pd_loop flat_map].
  - intro E. injection E as <-. auto.
  - destruct (pd_step P b B orig st v) as [s|] eqn:E; [|discriminate]. intros H G.
    apply (pd_step_good _ _ _ _ _ _ _ _ E) in G. apply (IH _ _ _ H) in G. revert G.
    apply good_incl. intros a Ha. rewrite !in_app_iff in *. tauto.
Qed.

Lemma getPD_good EPS DIFFEPS P b lpopt B orig pd :
  getProblemData EPS DIFFEPS P b lpopt B orig = Some pd ->
  exists mm, pd_EPS pd = Qminb EPS (fst mm / snd mm) /\
    (0 < pd_minAbs pd -> good mm (elements P)) /\
    good mm (lpopt :: flat_map (var_refs P) (seq 0 (ncols P + nrows P))) /\
    minAbsCoeff (elements P) = Some (pd_minAbs pd) /\ maxAbsCoeff (elements P) = Some (pd_maxAbs pd).
Proof.
  unfold getProblemData.
  destruct (minAbsCoeff _) as [mn|] eqn:Emn; [|discriminate]. destruct (maxAbsCoeff _) as [mx|] eqn:Emx; [|discriminate].
  cbv zeta. match goal with |- context [pd_loop _ _ _ _ ?s _] => set (st0 := s) end.
  destruct (pd_loop _ _ _ _ st0 _) as [st|] eqn:EL; [|discriminate].
  destruct (redcost_loop _ _ _ _) as [[ds w]|]; [|discriminate]. intro H. injection H as <-.
  cbn [pd_EPS pd_minAbs pd_maxAbs]. exists (s_min st, s_max st). split; [reflexivity|].
  destruct (minAbs_spec _ _ Emn) as [Hmn (e0 & He0 & Emn0)]. destruct (maxAbs_spec _ _ Emx) as [Hmx _].
  assert (mn0 : 0 <= mn) by (rewrite Emn0; apply Qabs_nonneg).
  assert (G0 : good (if Qltb 0 mn then Qminb 1 mn else 1, Qmaxb 1 mx) []).
  { unfold good. cbn [fst snd]. destruct (Qmaxb_le 1 mx). destruct (Qltb_reflect 0 mn) as [L|L].
    - destruct (Qminb_le 1 mn). split; [apply Qminb_pos; lra|]. split; [lra|]. split; [lra|]. intros a [].
    - split; [lra|]. split; [lra|]. split; [lra|]. intros a []. }
  assert (G1 : 0 < mn -> good (if Qltb 0 mn then Qminb 1 mn else 1, Qmaxb 1 mx) (elements P)).
  { intro L. destruct G0 as (A1 & A2 & A3 & _). unfold good. split; [exact A1|]. split; [exact A2|]. split; [exact A3|].
    cbn [fst snd] in *. intros a Ha. destruct (Qmaxb_le 1 mx) as [M1 M2]. specialize (Hmx a Ha). specialize (Hmn a Ha).
    split; [lra|]. intros _. apply Qltb_lt in L. rewrite L. destruct (Qminb_le 1 mn). lra. }
  assert (F : forall l, good (if Qltb 0 mn then Qminb 1 mn else 1, Qmaxb 1 mx) l ->
     good (s_min st, s_max st) (flat_map (var_refs P) (seq 0 (ncols P + nrows P)) ++ lpopt :: l)).
  { intros l G. apply (pd_loop_good _ _ _ _ _ _ _ _ EL). subst st0. cbn [s_min s_max].
    rewrite <- surjective_pairing. apply good_update, G. }
  split; [|split; [|split; reflexivity]].
  - intro L. specialize (F _ (G1 L)). revert F. apply good_incl. intros a Ha. rewrite in_app_iff. right. right. exact Ha.
  - specialize (F _ G0). revert F. apply good_incl. intros a Ha. rewrite in_app_iff. destruct Ha as [<-|Ha]; cbn; tauto.
Qed.
