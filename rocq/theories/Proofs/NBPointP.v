From Verif Require Import Prelude Model.Tolerance Model.LP Model.BasisStatus Model.NBSpace
  Spec.LPSpec Spec.NBSpec Proofs.ToleranceP.
From Coq Require Import Permutation.

(** ** pval of vectors without repeated indices *)
Lemma pval_notin V i : ~ In i (map fst V) -> pval V i == 0.
Proof.
  induction V as [|e V IH]; intro H; [reflexivity|]. rewrite pval_cons.
  cbn [map In] in H. destruct (Nat.eqb_spec (fst e) i) as [E|E]; [exfalso; tauto|].
  rewrite IH by tauto. ring.
Qed.
Lemma pval_in V i q : NoDup (map fst V) -> In (i, q) V -> pval V i == q.
Proof.
  induction V as [|e V IH]; intros H Hin; [destruct Hin|]. rewrite pval_cons.
  cbn [map] in H. apply NoDup_cons_iff in H. destruct H as [H1 H2].
  destruct Hin as [->|Hin]; cbn [fst snd].
  - rewrite Nat.eqb_refl, pval_notin by exact H1. ring.
  - destruct (Nat.eqb_spec (fst e) i) as [E|E].
    + exfalso. apply H1. rewrite E. apply (in_map fst) in Hin. exact Hin.
    + rewrite (IH H2 Hin). ring.
Qed.

(** ** merging *)
Lemma emit_tiny_split bound tz : map snd tz = fst (emit_tiny bound tz) ++ map snd (snd (emit_tiny bound tz)).
Proof.
  induction tz as [|[ti e] r IH]; [reflexivity|]. cbn [emit_tiny].
  destruct (Nat.ltb ti bound); [|reflexivity].
  destruct (emit_tiny bound r) as [out rest] eqn:E. cbn [fst snd map] in *.
  rewrite IH. reflexivity.
Qed.

Lemma merge_tiny_perm nt : forall tz, Permutation (merge_tiny nt tz) (nt ++ map snd tz).
Proof.
  induction nt as [|e r IH]; intro tz; cbn [merge_tiny app]; [reflexivity|].
  pose proof (emit_tiny_split (fst e) tz) as H.
  destruct (emit_tiny (fst e) tz) as [out rest]. cbn [fst snd] in H. rewrite H.
  rewrite (IH rest).
  symmetry. apply Permutation_cons_app.
  rewrite !app_assoc. apply Permutation_app_tail. apply Permutation_app_comm.
Qed.

Lemma insert_decr_perm e l : Permutation (insert_decr e l) (e :: l).
Proof.
  induction l as [|h t IH]; cbn [insert_decr]; [reflexivity|].
  destruct (Qle_bool (snd h) (snd e)); [reflexivity|].
  rewrite IH. apply perm_swap.
Qed.
Lemma sortDecr_perm l : Permutation (sortDecrElement l) l.
Proof.
  induction l as [|e l IH]; cbn [sortDecrElement fold_right]; [reflexivity|].
  fold (sortDecrElement l). rewrite insert_decr_perm, IH. reflexivity.
Qed.

Lemma select_tiny_prefix need rc : forall l o sel o',
  select_tiny need rc o l = (sel, o') -> exists rest, l = sel ++ rest.
Proof.
  induction l as [|e r IH]; intros o sel o' H; cbn [select_tiny] in H.
  - inversion H. exists []. reflexivity.
  - destruct (need o).
    + destruct (select_tiny need rc (o + snd e * rc (fst e)) r) as [s' o1] eqn:E.
      inversion H; subst. destruct (IH _ _ _ E) as [rest Hr].
      exists rest. cbn. rewrite <- Hr. reflexivity.
    + inversion H. exists (e :: r). reflexivity.
Qed.

Lemma combine_snd {A B} (l : list A) (m : list B) : (length m <= length l)%nat -> map snd (combine l m) = m.
Proof.
  revert m. induction l as [|a l IH]; intros m H; destruct m as [|b m]; cbn in *; try reflexivity; try lia.
  rewrite IH by lia. reflexivity.
Qed.

Lemma with_tiny_spec need rc o nt ti vec o' :
  with_tiny need rc o nt ti = (vec, o') ->
  exists sel rest, Permutation vec (nt ++ sel) /\ Permutation ti (sel ++ rest).
Proof.
  unfold with_tiny. destruct (need o).
  - destruct (select_tiny need rc o (sortDecrElement ti)) as [sel o1] eqn:E.
    intro H. inversion H; subst. destruct (select_tiny_prefix _ _ _ _ _ _ E) as [rest Hr].
    exists sel, rest. pose proof (sortDecr_perm ti) as Hp.
    assert (Hl : (length sel <= length (map fst ti))%nat).
    { rewrite map_length, <- (Permutation_length Hp), Hr, app_length. lia. }
    split.
    + rewrite merge_tiny_perm, combine_snd by exact Hl. reflexivity.
    + rewrite <- Hr. symmetry. exact Hp.
  - intro H. inversion H; subst. exists [], ti. rewrite app_nil_r. split; reflexivity.
Qed.

(** ** classification *)
Definition is_nt (eps : Q) (e : nat * Q) : bool := negb (isZero (snd e) eps).

Lemma classify_split eps rc l : forall nt ti o nt' ti' o',
  fold_left (classify eps rc) l (nt, ti, o) = (nt', ti', o') ->
  exists a b c, nt' = nt ++ a /\ ti' = ti ++ b /\ Permutation l (a ++ b ++ c) /\
    (forall e, In e (b ++ c) -> Qabs (snd e) < eps).
Proof.
  induction l as [|e l IH]; intros nt ti o nt' ti' o' H; cbn [fold_left] in H.
  - inversion H; subst. exists [], [], []. rewrite !app_nil_r. repeat split; try constructor.
    intros e [].
  - unfold classify at 2 in H. destruct (isZero (snd e) eps) eqn:Z.
    + apply isZero_iff in Z. destruct (isZero (snd e * rc (fst e)) eps).
      * destruct (IH _ _ _ _ _ _ H) as (a & b & c & H1 & H2 & H3 & H4).
        exists a, b, (e :: c). split; [exact H1|]. split; [exact H2|]. split.
        -- rewrite H3, app_assoc. rewrite (app_assoc a b (e :: c)).
           rewrite <- app_assoc. apply Permutation_cons_app. rewrite app_assoc. reflexivity.
        -- intros x Hx. apply in_app_iff in Hx. destruct Hx as [Hx|[<-|Hx]]; [|exact Z|];
             apply H4, in_app_iff; tauto.
      * destruct (IH _ _ _ _ _ _ H) as (a & b & c & H1 & H2 & H3 & H4).
        exists a, (e :: b), c. split; [exact H1|]. split; [rewrite H2, <- app_assoc; reflexivity|].
        split.
        -- rewrite H3. cbn [app]. apply Permutation_cons_app. reflexivity.
        -- intros x [<-|Hx]; [exact Z|]. apply H4. exact Hx.
    + destruct (IH _ _ _ _ _ _ H) as (a & b & c & H1 & H2 & H3 & H4).
      exists (e :: a), b, c. split; [rewrite H1, <- app_assoc; reflexivity|].
      split; [exact H2|]. split; [|exact H4]. cbn [app]. rewrite H3. reflexivity.
Qed.

Lemma NoDup_app_l {A} (l m : list A) : NoDup (l ++ m) -> NoDup l.
Proof.
  induction l as [|a l IH]; cbn; intro H; [constructor|].
  apply NoDup_cons_iff in H. destruct H as [H1 H2]. constructor; [|exact (IH H2)].
  intro C. apply H1, in_app_iff. left. exact C.
Qed.

(** What a packed result says about a list of coordinates [E]. *)
Definition faithful (eps : Q) (E V : packed) : Prop :=
  NoDup (map fst V) /\
  (forall i, ~ In i (map fst E) -> ~ In i (map fst V)) /\
  (forall i q, In (i, q) E -> pval V i == q \/ (pval V i == 0 /\ Qabs q < eps)).

Lemma faithful_from_parts eps E a b c sel rest V :
  NoDup (map fst E) ->
  Permutation E (a ++ b ++ c) -> Permutation b (sel ++ rest) -> Permutation V (a ++ sel) ->
  (forall e, In e (b ++ c) -> Qabs (snd e) < eps) ->
  faithful eps E V.
Proof.
  intros ND HE Hb HV Hs.
  assert (HE' : Permutation E (V ++ rest ++ c)).
  { rewrite HE, Hb, HV. rewrite <- !app_assoc. reflexivity. }
  assert (ND' : NoDup (map fst V ++ map fst (rest ++ c))).
  { rewrite <- map_app. eapply Permutation_NoDup; [|exact ND]. apply Permutation_map, HE'. }
  assert (NDV : NoDup (map fst V)) by (eapply NoDup_app_l; exact ND').
  split; [exact NDV|]. split.
  - intros i Hi HiV. apply Hi. apply (Permutation_in i (Permutation_map fst (Permutation_sym HE'))).
    rewrite map_app, in_app_iff. left. exact HiV.
  - intros i q Hin. pose proof (Permutation_in _ HE' Hin) as Hin'.
    apply in_app_iff in Hin'. destruct Hin' as [Hin'|Hin'].
    + left. apply pval_in; assumption.
    + right. split.
      * apply pval_notin. intro C.
        apply (in_map fst) in Hin'. cbn [fst] in Hin'.
        revert C Hin'. clear -ND'. induction (map fst V) as [|h t IH]; [intros []|].
        cbn in ND'. apply NoDup_cons_iff in ND'. destruct ND' as [N1 N2].
        intros [->|C] Hin'; [|exact (IH N2 C Hin')]. apply N1, in_app_iff. right. exact Hin'.
      * apply (Hs (i, q)). rewrite in_app_iff in *. destruct Hin' as [Hin'|Hin']; [left|tauto].
        apply (Permutation_in _ (Permutation_sym Hb)). apply in_app_iff. tauto.
Qed.

Lemma classified_faithful eps rc need E nt ti o vec o' :
  NoDup (map fst E) ->
  fold_left (classify eps rc) E ([], [], 0) = (nt, ti, o) ->
  with_tiny need rc o nt ti = (vec, o') ->
  faithful eps E vec.
Proof.
  intros ND HF HW. destruct (classify_split _ _ _ _ _ _ _ _ _ HF) as (a & b & c & -> & -> & HE & Hs).
  destruct (with_tiny_spec _ _ _ _ _ _ _ HW) as (sel & rest & HV & Hb). cbn [app] in HV, Hb.
  eapply faithful_from_parts; eassumption.
Qed.

Lemma point_entries_fst P v sol act NB : map fst (point_entries P v sol act NB) = seq 0 (ncols P).
Proof. unfold point_entries. rewrite map_map. cbn [fst]. apply map_id. Qed.

Lemma point_entries_in P v sol act NB c : (c < ncols P)%nat ->
  In (c, point_coord P v sol act (nth c NB O)) (point_entries P v sol act NB).
Proof. intro H. apply in_map_iff. exists c. split; [reflexivity|]. apply in_seq. lia. Qed.

Lemma setCompNBCoorPoint_faithful EPS DIFFEPS P v sol act dobj NB rc vec :
  setCompNBCoorPoint EPS DIFFEPS P v sol act dobj NB rc = Some vec ->
  faithful EPS (point_entries P v sol act NB) vec.
Proof.
  unfold setCompNBCoorPoint. destruct (fold_left _ _ _) as [[nt ti] o] eqn:E.
  destruct (with_tiny _ _ _ _ _) as [vec' o'] eqn:W.
  destruct (point_check _ _ _ _); intro H; inversion H; subst.
  eapply classified_faithful; [|exact E|exact W].
  rewrite point_entries_fst. apply seq_NoDup.
Qed.

Lemma setCompNBCoor_faithful EPS DIFFEPS P v x NB rc vec :
  setCompNBCoor EPS DIFFEPS P v x NB rc = Some vec ->
  faithful EPS (point_entries P v x (fun i => activity P i x) NB) vec.
Proof.
  unfold setCompNBCoor. destruct (fold_left _ _ _) as [[nt ti] o] eqn:E.
  destruct (with_tiny _ _ _ _ _) as [vec' o'] eqn:W.
  destruct (_ && _); intro H; inversion H; subst.
  eapply classified_faithful; [|exact E|exact W].
  rewrite point_entries_fst. apply seq_NoDup.
Qed.

(** The coordinate of a point of the root LP is its distance from the root bound. *)
Lemma point_coord_dist P b v x var : 
  (var < ncols P + nrows P)%nat ->
  nb_consistent P b v var -> feasible P x ->
  point_coord P v x (fun i => activity P i x) var == dist P b var x.
Proof.
  intros Hv Hc [Hb Hr]. unfold point_coord, dist, nb_consistent in *.
  destruct (Nat.ltb_spec var (ncols P)) as [L|L].
  - destruct (Hb var L) as [B1 B2]. destruct (isNonBasicUBCol b var).
    + destruct (cup P var) as [u|]; [|destruct Hc]. cbn [upVal below] in *. qabs; lra.
    + destruct Hc as [_ Hc]. destruct (clo P var) as [u|]; [|destruct Hc]. cbn [loVal above] in *. qabs; lra.
  - assert (L' : (var - ncols P < nrows P)%nat) by lia.
    destruct (Hr _ L') as [B1 B2]. unfold activity, rowSense, rowRHS, above, below in *.
    destruct (rows P (var - ncols P)) as [rc lo up]; cbn [rcoef rlo rup] in *.
    destruct lo as [l|]; destruct up as [u|]; try (qabs; lra); try tauto.
    destruct (Qeq_bool l u); qabs; lra.
Qed.

(** ** the objective accumulated along the way *)
Definition obj_of (rc : nat -> Q) (vec : packed) : Q := Qsumf (fun e => snd e * rc (fst e)) vec.
Lemma obj_of_app rc a b : obj_of rc (a ++ b) == obj_of rc a + obj_of rc b.
Proof. unfold obj_of, Qsumf. rewrite map_app. induction (map _ a) as [|q l IH]; cbn [app Qsum]; [ring|rewrite IH; ring]. Qed.
Lemma obj_of_perm rc a b : Permutation a b -> obj_of rc a == obj_of rc b.
Proof. unfold obj_of, Qsumf. induction 1; cbn [map Qsum]; try (rewrite ?IHPermutation; ring). rewrite IHPermutation1. exact IHPermutation2. Qed.
Lemma select_tiny_obj need rc : forall l o sel o', select_tiny need rc o l = (sel, o') -> o' == o + obj_of rc sel.
Proof.
  induction l as [|e r IH]; intros o sel o' H; cbn [select_tiny] in H.
  - injection H as <- <-. unfold obj_of, Qsumf. cbn [map Qsum]. ring.
  - destruct (need o).
    + destruct (select_tiny need rc (o + snd e * rc (fst e)) r) as [s' o1] eqn:E. injection H as <- <-.
      rewrite (IH _ _ _ E). unfold obj_of, Qsumf. cbn [map Qsum]. ring.
    + injection H as <- <-. unfold obj_of, Qsumf. cbn [map Qsum]. ring.
Qed.
Lemma with_tiny_obj need rc o nt ti vec o' : with_tiny need rc o nt ti = (vec, o') -> o == obj_of rc nt -> o' == obj_of rc vec.
Proof.
  unfold with_tiny. destruct (need o).
  - destruct (select_tiny need rc o (sortDecrElement ti)) as [sel o1] eqn:E.
    intros H O. injection H as <- <-. destruct (select_tiny_prefix _ _ _ _ _ _ E) as [rest Hr]. pose proof (sortDecr_perm ti) as Hp.
    assert (Hl : (length sel <= length (map fst ti))%nat).
    { rewrite map_length, <- (Permutation_length Hp), Hr, app_length. lia. }
    rewrite (obj_of_perm rc _ _ (merge_tiny_perm _ _)), combine_snd by exact Hl.
    rewrite obj_of_app, <- O. exact (select_tiny_obj _ _ _ _ _ _ E).
  - intros H O. injection H as <- <-. exact O.
Qed.
Lemma classify_obj eps rc l : forall nt ti o nt' ti' o',
  fold_left (classify eps rc) l (nt, ti, o) = (nt', ti', o') -> o == obj_of rc nt -> o' == obj_of rc nt'.
Proof.
  induction l as [|e l IH]; intros nt ti o nt' ti' o' H O; cbn [fold_left] in H.
  - injection H as <- <- <-. exact O.
  - unfold classify at 2 in H. destruct (isZero (snd e) eps).
    + destruct (isZero (snd e * rc (fst e)) eps); exact (IH _ _ _ _ _ _ H O).
    + apply (IH _ _ _ _ _ _ H). rewrite obj_of_app, O. unfold obj_of, Qsumf. cbn [map Qsum fst snd]. ring.
Qed.

Lemma point_check_ok EPS DIFFEPS a b : 0 < EPS -> EPS <= 1 # 100 -> point_check EPS DIFFEPS a b = false ->
  Qabs (a - b) < EPS \/ Qabs (a - b) < DIFFEPS \/ Qabs (a - b) <= (3 # 100) + EPS7 \/
  Qabs (a - b) <= ((3 # 100) + EPS7) * Qabs a \/ Qabs (a - b) <= ((3 # 100) + EPS7) * Qabs b.
Proof.
  intros E0 E1 H. unfold point_check in H. cbv zeta in H.
  assert (P7 : 0 < EPS7) by reflexivity.
  destruct (isVal (a - b) 0 EPS) eqn:V0.
  { left. apply isVal_iff in V0. setoid_replace (a - b - 0) with (a - b) in V0 by ring. exact V0. }
  destruct (isVal (a - b) 0 DIFFEPS) eqn:V1.
  { right. left. apply isVal_iff in V1. setoid_replace (a - b - 0) with (a - b) in V1 by ring. exact V1. }
  cbn [negb andb] in H. right. right.
  assert (G : forall q, greaterThanVal q (103 # 100) EPS7 = false -> q <= (103 # 100) + EPS7).
  { intros q Hq. unfold greaterThanVal in Hq. qhyps. lra. }
  apply G in H. clear G.
  destruct (_ || _)%bool eqn:S1 in H.
  { exfalso. assert (X : inject_Z (10 ^ 100) <= (103 # 100) + EPS7) by exact H. vm_compute in X. apply X. reflexivity. }
  destruct (isZero a EPS && isZero b EPS)%bool eqn:S2.
  { left. apply andb_prop in S2. destruct S2 as [S2 S3]. apply isZero_iff in S2. apply isZero_iff in S3.
    qabs; lra. }
  destruct (isZero a EPS || isZero b EPS)%bool eqn:S3.
  { left. lra. }
  apply orb_false_iff in S3. destruct S3 as [Z1 Z2].
  assert (NA : EPS <= Qabs a). { destruct (Qlt_le_dec (Qabs a) EPS) as [L|L]; [|exact L]. apply isZero_iff in L. congruence. }
  assert (NB : EPS <= Qabs b). { destruct (Qlt_le_dec (Qabs b) EPS) as [L|L]; [|exact L]. apply isZero_iff in L. congruence. }
  assert (SG : (0 < a /\ 0 < b) \/ (a < 0 /\ b < 0)).
  { apply orb_false_iff in S1. destruct S1 as [S1 S1'].
    destruct (Qlt_le_dec 0 a) as [A|A]; destruct (Qlt_le_dec 0 b) as [B|B].
    - left. split; assumption.
    - exfalso. assert (b <= - EPS) by (revert NB; apply Qabs_case; intros; lra). assert (EPS <= a) by (revert NA; apply Qabs_case; intros; lra).
      unfold lessThanVal, greaterThanVal in S1, S1'. rewrite !andb_false_iff in *. destruct S1' as [X|X]; qhyps; lra.
    - exfalso. assert (a <= - EPS) by (revert NA; apply Qabs_case; intros; lra). assert (EPS <= b) by (revert NB; apply Qabs_case; intros; lra).
      unfold lessThanVal, greaterThanVal in S1, S1'. rewrite !andb_false_iff in *. destruct S1 as [X|X]; qhyps; lra.
    - right. assert (a <= - EPS) by (revert NA; apply Qabs_case; intros; lra). assert (b <= - EPS) by (revert NB; apply Qabs_case; intros; lra). split; lra. }
  assert (D : forall u w, 0 < w -> u / w <= (103 # 100) + EPS7 -> u <= ((103 # 100) + EPS7) * w).
  { intros u w W Q. apply (Qmult_le_compat_r _ _ w) in Q; [|lra]. setoid_replace (u / w * w) with u in Q by (field; lra). exact Q. }
  assert (D1 : forall u w, 0 < w -> 1 <= u / w -> w <= u).
  { intros u w W Q. apply (Qmult_le_compat_r _ _ w) in Q; [|lra]. setoid_replace (u / w * w) with u in Q by (field; lra). lra. }
  assert (D2 : forall u w, 0 < w -> u / w < 1 -> u < w).
  { intros u w W Q. apply (Qmult_lt_r _ _ w W) in Q. setoid_replace (u / w * w) with u in Q by (field; lra). lra. }
  destruct (Qltb_reflect (a / b) 1) as [R|R]; right.
  - left. destruct SG as [[A B]|[A B]].
    + apply (D b a A) in H. apply (D2 a b B) in R. rewrite (Qabs_pos a) by lra. qabs; lra.
    + assert (H' : (-b) / (-a) <= (103 # 100) + EPS7) by (setoid_replace ((-b)/(-a)) with (b / a) by (field; lra); exact H).
      apply D in H'; [|lra]. assert (R' : (-a) / (-b) < 1) by (setoid_replace ((-a)/(-b)) with (a / b) by (field; lra); exact R).
      apply D2 in R'; [|lra]. rewrite (Qabs_neg a) by lra. qabs; lra.
  - right. destruct SG as [[A B]|[A B]].
    + apply (D a b B) in H. apply Qnot_lt_le in R. apply (D1 a b B) in R. rewrite (Qabs_pos b) by lra. qabs; lra.
    + assert (H' : (-a) / (-b) <= (103 # 100) + EPS7) by (setoid_replace ((-a)/(-b)) with (a / b) by (field; lra); exact H).
      apply D in H'; [|lra]. apply Qnot_lt_le in R. assert (R' : 1 <= (-a) / (-b)) by (setoid_replace ((-a)/(-b)) with (a / b) by (field; lra); exact R).
      apply D1 in R'; [|lra]. rewrite (Qabs_neg b) by lra. qabs; lra.
Qed.

Lemma ray_classify_obj eps rc l : forall nt ti o nt' ti' o',
  fold_left (ray_classify eps rc) l (nt, ti, o) = (nt', ti', o') -> o == obj_of rc nt -> o' == obj_of rc nt'.
Proof.
  induction l as [|e l IH]; intros nt ti o nt' ti' o' H O; cbn [fold_left] in H.
  - injection H as <- <- <-. exact O.
  - unfold ray_classify at 2 in H. destruct (snd e) as [[q|q]|].
    + apply (IH _ _ _ _ _ _ H). rewrite obj_of_app, O. unfold obj_of, Qsumf. cbn [map Qsum fst snd]. ring.
    + unfold classify in H. cbn [fst snd] in H. destruct (isZero q eps).
      * destruct (isZero (q * rc (fst e)) eps); exact (IH _ _ _ _ _ _ H O).
      * apply (IH _ _ _ _ _ _ H). rewrite obj_of_app, O. unfold obj_of, Qsumf. cbn [map Qsum fst snd]. ring.
    + exact (IH _ _ _ _ _ _ H O).
Qed.
Lemma obj_of_scale rc s v : obj_of rc (scale_packed s v) == s * obj_of rc v.
Proof.
  unfold obj_of, Qsumf, scale_packed. rewrite map_map. cbn [fst snd].
  induction v as [|e v IH]; cbn [map Qsum]; [ring|]. rewrite IH. ring.
Qed.
