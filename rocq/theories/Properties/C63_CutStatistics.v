(** C63: what is reported about the cuts — support, activity, numbers per type and heuristic, averages. *)
From Verif Require Import Prelude Model.LP Model.Tolerance Model.Generator Model.Generate Model.Analysis Spec.LPSpec Spec.GenSpec Proofs.ToleranceP Proofs.GeneratorP Proofs.GenExamples Properties.C17_Bookkeeping.
#[local] Open Scope Q_scope.

(** ** Support, activity, and the check against a feasible solution. *)
(** The coefficients that are not zero up to [eps]. *)
Definition support (eps : Q) (c : cut) : list (nat * Q) := filter (fun e => Qle_bool eps (Qabs (snd e))) (crow c).
Lemma filter_split {A} (p : A -> bool) (l : list A) : (length (filter p l) + length (filter (fun x => negb (p x)) l) = length l)%nat.
Proof. induction l as [|a l IH]; [reflexivity|]. cbn [filter length]. destruct (p a); cbn [negb length]; lia. Qed.
Theorem density_is_support : forall c eps, checkCutDensity c eps = Z.of_nat (length (support eps c)).
Proof.
  intros c eps. unfold checkCutDensity, support.
  assert (G : forall l n, fold_left (fun n (e : nat * Q) => if isZero (snd e) eps then (n - 1)%Z else n) l n = (n - Z.of_nat (length (filter (fun e => negb (Qle_bool eps (Qabs (snd e)))) l)))%Z).
  { induction l as [|e l IH]; intro n; cbn [fold_left filter length]; [lia|]. rewrite IH.
    destruct (isZero (snd e) eps) eqn:Z.
    - apply isZero_iff in Z. destruct (Qle_bool eps (Qabs (snd e))) eqn:L; cbn [negb length]; [apply Qle_bool_iff in L; lra|lia].
    - apply isZero_false_iff in Z. apply Qle_bool_iff in Z. rewrite Z. cbn [negb]. lia. }
  rewrite G. pose proof (filter_split (fun e : nat * Q => Qle_bool eps (Qabs (snd e))) (crow c)). lia.
Qed.
Print Assumptions density_is_support.
(** A cut is counted active exactly when the solver is optimal and its solution meets the cut with equality, up to 1e-7. *)
Theorem active_iff : forall sol c, checkCutActivity sol c = true <-> exists x, sol = Some x /\ Qabs (pdot (crow c) x - crhs c) < EPS7.
Proof.
  intros [x|] c; cbn [checkCutActivity].
  - rewrite isVal_iff. split; [intro H; exists x; auto|intros (y & [= <-] & H); exact H].
  - split; [discriminate|intros (x & E & _); discriminate].
Qed.
Print Assumptions active_iff.
(** The number returned is that of the cuts violated by at least 1e-7; so it is 0 for valid cuts and a feasible point, and
    if it is 0 every cut holds up to less than 1e-7. *)
Theorem violated_count : forall cs x,
  checkCutsAgainstFeasibleSolution cs x = length (filter (fun c => Qle_bool (pdot (crow c) x) (crhs c - EPS7)) cs).
Proof.
  intros cs x. unfold checkCutsAgainstFeasibleSolution.
  assert (G : forall l n, fold_left (fun n c => if lessThanVal (pdot (crow c) x) (crhs c) EPS7 then S n else n) l n = (n + length (filter (fun c => Qle_bool (pdot (crow c) x) (crhs c - EPS7)) l))%nat).
  { induction l as [|c l IH]; intro n; cbn [fold_left filter length]; [lia|]. rewrite IH. unfold lessThanVal. destruct (Qle_bool (pdot (crow c) x) (crhs c - EPS7)); cbn [length]; lia. }
  rewrite G. reflexivity.
Qed.
Print Assumptions violated_count.
Theorem violated_none : forall cs x,
  (Forall (fun c => satisfies_cut c x) cs -> checkCutsAgainstFeasibleSolution cs x = 0%nat) /\
  (checkCutsAgainstFeasibleSolution cs x = 0%nat -> Forall (fun c => crhs c - EPS7 < pdot (crow c) x) cs).
Proof.
  intros cs x. rewrite violated_count. assert (EP : 0 < EPS7) by reflexivity. induction cs as [|c cs [IH1 IH2]]; [split; [reflexivity|constructor]|].
  cbn [filter]. split.
  - intro H. inversion_clear H as [|? ? H1 H2]. unfold satisfies_cut in H1. destruct (Qle_bool (pdot (crow c) x) (crhs c - EPS7)) eqn:L; [apply Qle_bool_iff in L; lra|]. apply IH1, H2.
  - destruct (Qle_bool (pdot (crow c) x) (crhs c - EPS7)) eqn:L; [discriminate|]. intro H. constructor; [apply Qle_bool_gt in L; lra|apply IH2, H].
Qed.
Print Assumptions violated_none.
Definition exc (a b : Q) : cut := {| crow := [(0%nat, a); (1%nat, 1 # 1000000000)]; crhs := b |}.
Example support_ex : checkCutDensity (exc 1 2) (1 # 10000000) = 1%Z /\ checkCutActivity (Some (fun _ => 2)) (exc 1 2) = true /\
  checkCutsAgainstFeasibleSolution [exc 1 2; exc 1 3] (fun _ => 2) = 1%nat.
Proof. vm_compute. auto. Qed.

(** Minimum and maximum support are reported but never computed: whatever the cuts, they are 2147483647 (shown as "inf") and 0. *)
Theorem min_max_support_refuted :
  (forall i g cs eps i', updateCutInfo i g cs eps = Some i' -> ci_min i' = ci_min i /\ ci_max i' = ci_max i) /\
  (forall i l i', setCutInfo i l = Some i' -> ci_min i' = ci_min i /\ ci_max i' = ci_max i) /\
  (forall eps xg xv xa ig iv gm vp ig' iv', analyzeStrength eps xg xv xa ig iv gm vp = Some (ig', iv') ->
     ci_min ig' = ci_min ig /\ ci_max ig' = ci_max ig /\ ci_min iv' = ci_min iv /\ ci_max iv' = ci_max iv) /\
  ci_min ci_new = NO_SUPPORT /\ ci_max ci_new = 0%Z.
Proof.
  split; [|split; [|split; [|split; reflexivity]]].
  - intros i g cs eps i'. unfold updateCutInfo. destruct (Nat.ltb _ _); [discriminate|]. destruct (_ && _); [discriminate|]. intro H. injection H as <-. split; reflexivity.
  - intros i l i'. unfold setCutInfo.
    assert (G : forall l a a', fold_left merge_one l (Some a) = Some a' -> ci_min a' = ci_min a /\ ci_max a' = ci_max a).
    { assert (N : forall k, fold_left merge_one k None = None) by (intro k; induction k as [|? ? IH]; [reflexivity|exact IH]).
      intro k; induction k as [|o k IH]; intros a a' H; cbn [fold_left] in H; [injection H as <-; auto|].
      destruct (merge_one (Some a) o) as [b|] eqn:E; [|rewrite N in H; discriminate]. destruct (IH b a' H) as [-> ->]. clear IH H. unfold merge_one in E.
      destruct (vec_sum (ci_ntype a) (ci_ntype o)); [|discriminate]. destruct (vec_sum (ci_nheur a) (ci_nheur o)); [|discriminate]. destruct (vec_sum (ci_nobj a) (ci_nobj o)); [|discriminate].
      destruct (vec_sum (ci_nfailheur a) (ci_nfailheur o)); [|discriminate]. destruct (vec_sum (ci_nfails a) (ci_nfails o)); [|discriminate]. injection E as <-. split; reflexivity. }
    destruct (fold_left merge_one l _) as [m|] eqn:E; [|discriminate]. destruct (take_labels (map (fun o => (ci_num o, ci_type o)) l)); [|discriminate]. destruct (take_labels _); [|discriminate].
    intro H. injection H as <-. apply (G l _ _ E).
  - intros eps xg xv xa ig iv gm vp ig' iv'. unfold analyzeStrength. destruct (active_heur _ _ _ _); [|discriminate]. intro H. injection H as <- <-. destruct gm; repeat split.
Qed.
Print Assumptions min_max_support_refuted.

(** ** Merging the rounds. *)
Definition vec {A} (v : option (A -> Z)) (x : A) : Z := match v with Some f => f x | None => 0%Z end.
(** A summary of one round as the program makes it: all vectors there, one label per cut. *)
Definition complete (i : cutinfo) : Prop :=
  (0 <= ci_num i)%Z /\ Z.of_nat (length (ci_type i)) = ci_num i /\ Z.of_nat (length (ci_heur i)) = ci_num i /\
  ci_ntype i <> None /\ ci_nheur i <> None /\ ci_nobj i <> None /\ ci_nfailheur i <> None /\ ci_nfails i <> None.
(** Then the totals are the sums, in every type and heuristic, and the labels those of the rounds, in order. *)
Theorem merge_sums : forall i l, Forall complete l -> exists m, setCutInfo i l = Some m /\
  ci_rounds m = Z.of_nat (length l) /\
  ci_num m = Zsum (map ci_num l) /\ ci_obj m = Zsum (map ci_obj l) /\ ci_fail m = Zsum (map ci_fail l) /\
  ci_type m = concat (map ci_type l) /\ ci_heur m = concat (map ci_heur l) /\
  ci_ntype m <> None /\ ci_nheur m <> None /\ ci_nobj m <> None /\ ci_nfailheur m <> None /\ ci_nfails m <> None /\ ci_nact m <> None /\
  (forall t, vec (ci_ntype m) t = Zsum (map (fun o => vec (ci_ntype o) t) l)) /\
  (forall h, vec (ci_nheur m) h = Zsum (map (fun o => vec (ci_nheur o) h) l)) /\
  (forall h, vec (ci_nobj m) h = Zsum (map (fun o => vec (ci_nobj o) h) l)) /\
  (forall h, vec (ci_nfailheur m) h = Zsum (map (fun o => vec (ci_nfailheur o) h) l)) /\
  (forall f, vec (ci_nfails m) f = Zsum (map (fun o => vec (ci_nfails o) f) l)) /\
  (forall h, vec (ci_nact m) h = Zsum (map (fun o => vec (ci_nact o) h) l)).
Proof.
  intros i l C.
  assert (TL : forall {A} (num : cutinfo -> Z) (lab : cutinfo -> list A), (forall o, In o l -> (0 <= num o)%Z /\ Z.of_nat (length (lab o)) = num o) ->
     take_labels (map (fun o => (num o, lab o)) l) = Some (concat (map lab l))).
  { intros A num lab. clear. induction l as [|o l IH]; intro H; [reflexivity|]. cbn [map take_labels concat]. destruct (H o (or_introl eq_refl)) as [H1 H2].
    destruct (Z.ltb_spec (Z.of_nat (length (lab o))) (num o)); [lia|]. rewrite IH by (intros p Hp; apply H; right; exact Hp). rewrite firstn_all2 by lia. reflexivity. }
  assert (G : forall l a, Forall complete l -> ci_ntype a <> None -> ci_nheur a <> None -> ci_nobj a <> None -> ci_nfailheur a <> None -> ci_nfails a <> None -> ci_nact a <> None ->
    exists m, fold_left merge_one l (Some a) = Some m /\
    ci_num m = (ci_num a + Zsum (map ci_num l))%Z /\ ci_obj m = (ci_obj a + Zsum (map ci_obj l))%Z /\ ci_fail m = (ci_fail a + Zsum (map ci_fail l))%Z /\
    (ci_ntype m <> None /\ ci_nheur m <> None /\ ci_nobj m <> None /\ ci_nfailheur m <> None /\ ci_nfails m <> None /\ ci_nact m <> None) /\
    (forall t, vec (ci_ntype m) t = (vec (ci_ntype a) t + Zsum (map (fun o => vec (ci_ntype o) t) l))%Z) /\
    (forall h, vec (ci_nheur m) h = (vec (ci_nheur a) h + Zsum (map (fun o => vec (ci_nheur o) h) l))%Z) /\
    (forall h, vec (ci_nobj m) h = (vec (ci_nobj a) h + Zsum (map (fun o => vec (ci_nobj o) h) l))%Z) /\
    (forall h, vec (ci_nfailheur m) h = (vec (ci_nfailheur a) h + Zsum (map (fun o => vec (ci_nfailheur o) h) l))%Z) /\
    (forall f, vec (ci_nfails m) f = (vec (ci_nfails a) f + Zsum (map (fun o => vec (ci_nfails o) f) l))%Z) /\
    (forall h, vec (ci_nact m) h = (vec (ci_nact a) h + Zsum (map (fun o => vec (ci_nact o) h) l))%Z)).
  { clear. induction l as [|o l IH]; intros a C A1 A2 A3 A4 A5 A6.
    - exists a. cbn [fold_left map Zsum]. rewrite !Z.add_0_r. split; [reflexivity|]. do 3 (split; [reflexivity|]). split; [auto 10|]. repeat (split; [intro; rewrite Z.add_0_r; reflexivity|]). intro; rewrite Z.add_0_r; reflexivity.
    - inversion_clear C as [|? ? Co Cl]. destruct Co as (_ & _ & _ & O1 & O2 & O3 & O4 & O5). cbn [fold_left]. unfold merge_one at 2.
      destruct (ci_ntype a) as [t1|] eqn:T1; [|congruence]. destruct (ci_ntype o) as [t2|] eqn:T2; [|congruence].
      destruct (ci_nheur a) as [h1|] eqn:H1; [|congruence]. destruct (ci_nheur o) as [h2|] eqn:H2; [|congruence].
      destruct (ci_nobj a) as [b1|] eqn:B1; [|congruence]. destruct (ci_nobj o) as [b2|] eqn:B2; [|congruence].
      destruct (ci_nfailheur a) as [f1|] eqn:F1; [|congruence]. destruct (ci_nfailheur o) as [f2|] eqn:F2; [|congruence].
      destruct (ci_nfails a) as [g1|] eqn:G1; [|congruence]. destruct (ci_nfails o) as [g2|] eqn:G2; [|congruence].
      destruct (ci_nact a) as [c1|] eqn:C1; [|congruence]. cbn [vec_sum].
      set (b := Build_cutinfo _ _ _ _ _ _ _ _ _ _ _ _ _ _ _ _ _ _).
      destruct (IH b Cl) as (m & M1 & M2 & M3 & M4 & M5 & M6 & M7 & M8 & M9 & M10 & M11); try (subst b; cbn; discriminate).
      { subst b. cbn. destruct (ci_nact o); cbn; discriminate. }
      exists m. split; [exact M1|]. cbn [map Zsum]. rewrite T2, H2, B2, F2, G2. subst b. cbn [ci_num ci_obj ci_fail ci_ntype ci_nheur ci_nobj ci_nfailheur ci_nfails ci_nact vec] in *.
      split; [lia|]. split; [lia|]. split; [lia|]. split; [exact M5|].
      split; [intro x; rewrite M6; lia|]. split; [intro x; rewrite M7; lia|]. split; [intro x; rewrite M8; lia|]. split; [intro x; rewrite M9; lia|]. split; [intro x; rewrite M10; lia|].
      intro x. rewrite M11. destruct (ci_nact o); cbn [vec vec_sum]; lia. }
  destruct (G l (cleared i (Z.of_nat (length l))) C) as (m & M1 & M2 & M3 & M4 & M5 & M6 & M7 & M8 & M9 & M10 & M11); try (cbn; discriminate).
  rewrite Forall_forall in C.
  assert (T : take_labels (map (fun o => (ci_num o, ci_type o)) l) = Some (concat (map ci_type l))) by (apply TL; intros o Ho; destruct (C o Ho) as (? & ? & _); auto).
  assert (H : take_labels (map (fun o => (ci_num o, ci_heur o)) l) = Some (concat (map ci_heur l))) by (apply TL; intros o Ho; destruct (C o Ho) as (? & ? & ? & _); auto).
  unfold setCutInfo. cbv zeta. rewrite M1, T, H. eexists. split; [reflexivity|]. unfold set_labels. cbn [ci_rounds ci_num ci_obj ci_fail ci_type ci_heur ci_ntype ci_nheur ci_nobj ci_nfailheur ci_nfails ci_nact].
  destruct M5 as (N1 & N2 & N3 & N4 & N5 & N6). cbn [cleared ci_num ci_obj ci_fail ci_ntype ci_nheur ci_nobj ci_nfailheur ci_nfails ci_nact vec] in *.
  split; [reflexivity|]. split; [lia|]. split; [lia|]. split; [lia|]. split; [reflexivity|]. split; [reflexivity|]. do 6 (split; [assumption|]).
  split; [intro x; rewrite M6; lia|]. split; [intro x; rewrite M7; lia|]. split; [intro x; rewrite M8; lia|]. split; [intro x; rewrite M9; lia|]. split; [intro x; rewrite M10; lia|]. intro x; rewrite M11; lia.
Qed.
Print Assumptions merge_sums.

(** ** The statistics of a whole run. *)
(** A round: the state of its own generator after generating from an empty pool (see C17 for [aligned]), or no generation. *)
Inductive vround := Generated (g : gstate) | NoVPC.
Definition round_ok (r : vround) : Prop :=
  match r with Generated g => aligned g /\ g_init g = 0%nat /\ g_repeat g = false | NoVPC => True end.
Definition round_pool (r : vround) : list cut := match r with Generated g => map ec (g_cuts g) | NoVPC => [] end.
Definition round_heurs (r : vround) : list objtype := match r with Generated g => g_heur g | NoVPC => [] end.
Definition round_types (r : vround) : list cuttype := match r with Generated g => g_type g | NoVPC => [] end.
(** main.cpp:610 and 643. *)
Definition round_info (eps : Q) (r : vround) : option cutinfo :=
  match r with Generated g => updateCutInfo ci_new g (map ec (g_cuts g)) eps | NoVPC => setCutInfo ci_new [] end.
Fixpoint all_infos (eps : Q) (rs : list vround) : option (list cutinfo) :=
  match rs with
  | [] => Some []
  | r :: rest => match round_info eps r, all_infos eps rest with Some i, Some l => Some (i :: l) | _, _ => None end
  end.
(** main.cpp:884-891. *)
Definition run_statistics (eps : Q) (rs : list vround) (xg xv xa : option (nat -> Q)) (ig : cutinfo) (gmics : option (list cut)) : option (cutinfo * cutinfo) :=
  match all_infos eps rs with
  | Some l => match setCutInfo ci_new l with Some m => analyzeStrength eps xg xv xa ig m gmics (concat (map round_pool rs)) | None => None end
  | None => None
  end.

Lemma round_info_ok : forall eps r, round_ok r -> exists i, round_info eps r = Some i /\ complete i /\ ci_nact i = match r with Generated _ => None | NoVPC => Some (fun _ => 0%Z) end /\
  ci_num i = Z.of_nat (length (round_pool r)) /\ ci_type i = round_types r /\ ci_heur i = round_heurs r /\
  (forall t, vec (ci_ntype i) t = count_type t (round_types r)) /\ (forall h, vec (ci_nheur i) h = count_heur h (round_heurs r)).
Proof.
  intros eps [g|] H.
  - destruct H as ((A1 & A2 & A3 & A4 & A5 & A6) & I0 & R). cbn [round_info round_pool round_types round_heurs]. unfold updateCutInfo. rewrite map_length, A4, I0. cbn [Nat.add]. rewrite Nat.ltb_irrefl. cbn [andb].
    rewrite R. eexists. split; [reflexivity|]. unfold complete.
    cbn [ci_num ci_type ci_heur ci_ntype ci_nheur ci_nobj ci_nfailheur ci_nfails ci_nact ci_new add_vec add_vec_as vec app].
    rewrite A1, A2. split; [repeat split; try lia; discriminate|]. split; [reflexivity|]. split; [lia|]. repeat split; auto.
  - eexists. split; [reflexivity|]. unfold complete. cbn. split; [repeat split; try lia; discriminate|]. repeat split; reflexivity.
Qed.

Definition number_active (sol : option (nat -> Q)) (cs : list cut) : Z := Z.of_nat (length (filter (checkCutActivity sol) cs)).
Lemma count_active_filter : forall sol cs, count_active sol cs = number_active sol cs.
Proof.
  intros sol cs. unfold count_active, number_active.
  assert (G : forall l n, fold_left (fun n c => if checkCutActivity sol c then (n + 1)%Z else n) l n = (n + Z.of_nat (length (filter (checkCutActivity sol) l)))%Z).
  { induction l as [|c l IH]; intro n; cbn [fold_left filter length]; [lia|]. rewrite IH. destruct (checkCutActivity sol c); cbn [length]; lia. }
  rewrite G. reflexivity.
Qed.
Lemma total_support_sum : forall eps cs, total_support eps cs = Zsum (map (fun c => Z.of_nat (length (support eps c))) cs).
Proof.
  intros eps cs. unfold total_support.
  assert (G : forall l n, fold_left (fun n c => (n + checkCutDensity c eps)%Z) l n = (n + Zsum (map (fun c => Z.of_nat (length (support eps c))) l))%Z).
  { induction l as [|c l IH]; intro n; cbn [fold_left map Zsum]; [lia|]. rewrite IH, density_is_support. lia. }
  rewrite G. reflexivity.
Qed.
(** The cuts of a pool that are active and labelled with heuristic [h]. *)
Definition active_labelled (sol : option (nat -> Q)) (h : objtype) (cs : list cut) (hs : list objtype) : Z :=
  Z.of_nat (length (filter (fun p => checkCutActivity sol (fst p) && objtype_eqb (snd p) h) (combine cs hs))).
Lemma active_heur_ok : forall sol cs hs f, length hs = length cs -> exists f', active_heur sol cs hs f = Some f' /\
  forall h, f' h = (f h + active_labelled sol h cs hs)%Z.
Proof.
  intros sol cs. induction cs as [|c cs IH]; intros [|h0 hs] f L; try discriminate.
  - exists f. split; [reflexivity|]. intro h. cbn. lia.
  - cbn [active_heur tl]. injection L as L. unfold active_labelled. destruct (checkCutActivity sol c) eqn:E.
    + destruct (IH hs (bump objtype_eqb f h0 1) L) as (f' & E1 & E2). exists f'. split; [exact E1|]. intro h. rewrite E2. unfold bump, active_labelled. cbn [combine filter fst snd]. rewrite E. cbn [andb].
      destruct (objtype_eqb h0 h); cbn [length]; lia.
    + destruct (IH hs f L) as (f' & E1 & E2). exists f'. split; [exact E1|]. intro h. rewrite E2. unfold active_labelled. cbn [combine filter fst snd]. rewrite E. reflexivity.
Qed.
Definition average (total n : Z) (avg : option Q) : Prop := match avg with Some a => (0 < n)%Z /\ a * inject_Z n == inject_Z total | None => n = 0%Z end.
Lemma average_ok : forall total n, (0 <= n)%Z -> average total n (new_average (Some 0) 0 total n).
Proof.
  intros total n H. unfold new_average. destruct (Z.eqb_spec n 0) as [->|N]; [reflexivity|]. cbn [average]. split; [lia|].
  assert (~ inject_Z n == 0) by (intro K; apply N; unfold Qeq in K; cbn in K; lia). field. assumption.
Qed.

(** For every run (any rounds, with or without cuts): the summary exists, and what it says is true of all the cuts of the
    run: their number, their types and heuristics, the number of cuts active at each solver's solution, in total and for
    each heuristic, and their average support (the number of coefficients not 0). *)
Theorem run_statistics_true : forall eps rs xg xv xa ig gmics, Forall round_ok rs -> exists ig' iv,
  run_statistics eps rs xg xv xa ig gmics = Some (ig', iv) /\
  let cs := concat (map round_pool rs) in let hs := concat (map round_heurs rs) in let ts := concat (map round_types rs) in
  ci_rounds iv = Z.of_nat (length rs) /\ ci_num iv = Z.of_nat (length cs) /\ ci_heur iv = hs /\ ci_type iv = ts /\ length hs = length cs /\ length ts = length cs /\
  (forall t, vec (ci_ntype iv) t = count_type t ts) /\ (forall h, vec (ci_nheur iv) h = count_heur h hs) /\
  ci_ag iv = number_active xg cs /\ ci_av iv = number_active xv cs /\ ci_aa iv = number_active xa cs /\
  (forall h, vec (ci_nact iv) h = active_labelled xv h cs hs) /\
  average (Zsum (map (fun c => Z.of_nat (length (support eps c))) cs)) (ci_num iv) (ci_avg iv) /\
  (forall gs, gmics = Some gs -> ci_num ig' = Z.of_nat (length gs) /\ ci_ag ig' = number_active xg gs /\ ci_av ig' = number_active xv gs /\ ci_aa ig' = number_active xa gs /\
     average (Zsum (map (fun c => Z.of_nat (length (support eps c))) gs)) (ci_num ig') (ci_avg ig')).
Proof.
  intros eps rs xg xv xa ig gmics R.
  assert (A : exists l, all_infos eps rs = Some l /\ Forall complete l /\ length l = length rs /\
     Zsum (map ci_num l) = Z.of_nat (length (concat (map round_pool rs))) /\
     concat (map ci_type l) = concat (map round_types rs) /\ concat (map ci_heur l) = concat (map round_heurs rs) /\
     length (concat (map round_heurs rs)) = length (concat (map round_pool rs)) /\ length (concat (map round_types rs)) = length (concat (map round_pool rs)) /\
     (forall t, Zsum (map (fun o => vec (ci_ntype o) t) l) = count_type t (concat (map round_types rs))) /\
     (forall h, Zsum (map (fun o => vec (ci_nheur o) h) l) = count_heur h (concat (map round_heurs rs))) /\
     (forall h, Zsum (map (fun o => vec (ci_nact o) h) l) = 0%Z)).
  { induction rs as [|r rs IH]; [exists []; repeat split; try constructor; reflexivity|]. inversion_clear R as [|? ? R1 R2].
    destruct (IH R2) as (l & B1 & B2 & B3 & B4 & B5 & B6 & B7 & B8 & B9 & B10 & B11). destruct (round_info_ok eps r R1) as (i & I1 & I2 & I3 & I4 & I5 & I6 & I7 & I8).
    exists (i :: l). cbn [all_infos]. rewrite I1, B1. cbn [map concat Zsum length]. rewrite !app_length, B3, B4, B5, B6, B7, B8, I4, I5, I6.
    assert (L : length (round_heurs r) = length (round_pool r) /\ length (round_types r) = length (round_pool r)) by (destruct I2 as (_ & ? & ? & _); rewrite I4 in *; rewrite <- I5, <- I6; lia).
    split; [reflexivity|]. split; [constructor; assumption|]. split; [lia|]. split; [lia|]. do 2 (split; [reflexivity|]). split; [lia|]. split; [lia|].
    split; [intro t; rewrite count_type_app, I7, B9; lia|]. split; [intro h; rewrite count_heur_app, I8, B10; lia|].
    intro h. rewrite B11, I3. destruct r; reflexivity. }
  destruct A as (l & B1 & B2 & B3 & B4 & B5 & B6 & B7 & B8 & B9 & B10 & B11). destruct (merge_sums ci_new l B2) as (m & M1 & M2 & M3 & M4 & M5 & M6 & M7 & _ & _ & _ & _ & _ & M0 & M8 & M9 & _ & _ & _ & M10).
  unfold run_statistics. rewrite B1, M1. unfold analyzeStrength. rewrite M7, B6.
  destruct (ci_nact m) as [fa|] eqn:NA; [|congruence]. destruct (active_heur_ok xv (concat (map round_pool rs)) (concat (map round_heurs rs)) fa B7) as (f' & F1 & F2). rewrite F1. cbv zeta.
  eexists. eexists. split; [reflexivity|]. unfold set_activity. cbn [ci_rounds ci_num ci_heur ci_type ci_ntype ci_nheur ci_ag ci_av ci_aa ci_nact ci_avg].
  rewrite !count_active_filter, total_support_sum, M2, M3, M6, M7, B3, B4, B5, B6.
  split; [reflexivity|]. split; [reflexivity|]. split; [reflexivity|]. split; [reflexivity|]. split; [exact B7|]. split; [exact B8|].
  split; [intro t; rewrite M8; apply B9|]. split; [intro h; rewrite M9; apply B10|]. do 3 (split; [reflexivity|]).
  split; [intro h; cbn [vec]; rewrite F2; specialize (M10 h); cbn [vec] in M10; rewrite M10, B11; lia|].
  split; [apply average_ok; lia|]. intros gs ->. cbn [ci_num ci_ag ci_av ci_aa ci_avg]. rewrite !count_active_filter, total_support_sum.
  do 4 (split; [reflexivity|]). apply average_ok; lia.
Qed.
Print Assumptions run_statistics_true.
(** ** One update. *)
(** Adding a call's results to a summary: cuts, objectives and failures are added, for every type, heuristic and kind of failure; what the
    cuts looked like earlier is kept; and the average support takes in exactly the cuts of this call, the last ones of the pool (its
    divisor is the old number plus the size of the whole pool). *)
Theorem update_adds : forall i g earlier recent eps i', length recent = g_num_cuts g ->
  updateCutInfo i g (earlier ++ recent) eps = Some i' ->
  (earlier = [] \/ Z.of_nat (length earlier) = ci_num i) /\
  ci_num i' = (ci_num i + Z.of_nat (g_num_cuts g))%Z /\ ci_obj i' = (ci_obj i + Z.of_nat (g_num_obj g))%Z /\
  ci_fail i' = (ci_fail i + Z.of_nat (g_num_fail g))%Z /\ ci_rounds i' = ci_rounds i /\
  ci_ag i' = ci_ag i /\ ci_av i' = ci_av i /\ ci_aa i' = ci_aa i /\ ci_nact i' = ci_nact i /\
  (forall t, vec (ci_ntype i') t = (vec (ci_ntype i) t + g_ntype g t)%Z) /\
  (forall f, vec (ci_nfails i') f = (vec (ci_nfails i) f + g_nfails g f)%Z) /\
  ((ci_nheur i = None <-> ci_nobj i = None) -> (ci_nheur i = None <-> ci_nfailheur i = None) ->
   (forall h, vec (ci_nheur i') h = (vec (ci_nheur i) h + g_nheur g h)%Z) /\ (forall h, vec (ci_nobj i') h = (vec (ci_nobj i) h + g_nobj g h)%Z) /\
   (forall h, vec (ci_nfailheur i') h = (vec (ci_nfailheur i) h + g_nfailheur g h)%Z)) /\
  (g_repeat g = false -> ci_type i' = ci_type i ++ g_type g /\ ci_heur i' = ci_heur i ++ g_heur g) /\
  (g_repeat g = true -> ci_type i' = g_type g /\ ci_heur i' = g_heur g) /\
  (forall a, ci_avg i = Some a ->
     let size := (ci_num i + Z.of_nat (length (earlier ++ recent)))%Z in
     match ci_avg i' with
     | Some a' => size <> 0%Z /\ a' * inject_Z size == a * inject_Z (ci_num i) + inject_Z (Zsum (map (fun c => Z.of_nat (length (support eps c))) recent))
     | None => size = 0%Z
     end).
Proof.
  intros i g earlier recent eps i' L. unfold updateCutInfo. rewrite app_length, L.
  destruct (Nat.ltb_spec (length earlier + g_num_cuts g) (g_num_cuts g)); [lia|].
  destruct (Nat.ltb (g_num_cuts g) (length earlier + g_num_cuts g) && negb _) eqn:K; [discriminate|].
  replace (length earlier + g_num_cuts g - g_num_cuts g)%nat with (length earlier) by lia. rewrite skipn_app, skipn_all, Nat.sub_diag. cbn [skipn app].
  intro E. injection E as <-. cbn [ci_num ci_obj ci_fail ci_rounds ci_ag ci_av ci_aa ci_nact ci_ntype ci_nheur ci_nobj ci_nfailheur ci_nfails ci_type ci_heur ci_avg].
  split.
  { apply andb_false_iff in K as [K|K]; [left; apply Nat.ltb_ge in K; destruct earlier; [reflexivity|cbn [length] in K; lia]|].
    apply negb_false_iff, Z.eqb_eq in K. right. lia. }
  do 8 (split; [reflexivity|]).
  split; [intro t; destruct (ci_ntype i); cbn [add_vec vec]; lia|]. split; [intro f; destruct (ci_nfails i); cbn [add_vec vec]; lia|].
  split.
  { intros N1 N2. destruct (ci_nheur i) as [h0|]; destruct (ci_nobj i) as [b0|]; destruct (ci_nfailheur i) as [f0|];
      try (exfalso; destruct N1 as [? ?], N2 as [? ?]; solve [assert (X : @None (objtype -> Z) = None) by reflexivity; intuition congruence]);
      cbn [add_vec_as vec]; repeat split; intro; lia. }
  split; [intros ->; split; reflexivity|]. split; [intros ->; split; reflexivity|].
  intros a Ea. cbv zeta. unfold new_average. rewrite Ea, total_support_sum.
  destruct (Z.eqb_spec (ci_num i + Z.of_nat (length earlier + g_num_cuts g)) 0) as [Z0|Z0]; [exact Z0|]. split; [exact Z0|].
  field. intro Q0. apply Z0. unfold Qeq in Q0. cbn in Q0. lia.
Qed.
Print Assumptions update_adds.
(** The same for Gomory cuts, each labelled GMIC. *)
Theorem gmic_update_adds : forall i cs eps, let i' := updateGMICInfo i cs eps in
  ci_num i' = (ci_num i + Z.of_nat (length cs))%Z /\ ci_type i' = ci_type i ++ repeat GMIC (length cs) /\
  (forall a, ci_avg i = Some a ->
     match ci_avg i' with
     | Some a' => ci_num i' <> 0%Z /\ a' * inject_Z (ci_num i') == a * inject_Z (ci_num i) + inject_Z (Zsum (map (fun c => Z.of_nat (length (support eps c))) cs))
     | None => ci_num i' = 0%Z
     end).
Proof.
  intros i cs eps. cbv zeta. split; [reflexivity|]. split; [reflexivity|]. intros a Ea. unfold updateGMICInfo. cbn [ci_avg ci_num]. unfold new_average. rewrite Ea, total_support_sum.
  destruct (Z.eqb_spec (ci_num i + Z.of_nat (length cs)) 0) as [Z0|Z0]; [exact Z0|]. split; [exact Z0|].
  field. intro Q0. apply Z0. unfold Qeq in Q0. cbn in Q0. lia.
Qed.
Print Assumptions gmic_update_adds.
(** Merging adds up the numbers of active cuts, each with its own kind. *)
Theorem merge_active : forall i l m, setCutInfo i l = Some m ->
  ci_ag m = Zsum (map ci_ag l) /\ ci_av m = Zsum (map ci_av l) /\ ci_aa m = Zsum (map ci_aa l).
Proof.
  assert (N : forall k, fold_left merge_one k None = None) by (intro k; induction k as [|? ? IH]; [reflexivity|exact IH]).
  assert (G : forall l a m, fold_left merge_one l (Some a) = Some m ->
     ci_ag m = (ci_ag a + Zsum (map ci_ag l))%Z /\ ci_av m = (ci_av a + Zsum (map ci_av l))%Z /\ ci_aa m = (ci_aa a + Zsum (map ci_aa l))%Z).
  { induction l as [|o l IH]; intros a m H; cbn [fold_left map Zsum] in *; [injection H as <-; lia|].
    destruct (merge_one (Some a) o) as [b|] eqn:E; [|rewrite N in H; discriminate]. destruct (IH b m H) as (-> & -> & ->). clear IH H. unfold merge_one in E.
    destruct (vec_sum (ci_ntype a) (ci_ntype o)); [|discriminate]. destruct (vec_sum (ci_nheur a) (ci_nheur o)); [|discriminate]. destruct (vec_sum (ci_nobj a) (ci_nobj o)); [|discriminate].
    destruct (vec_sum (ci_nfailheur a) (ci_nfailheur o)); [|discriminate]. destruct (vec_sum (ci_nfails a) (ci_nfails o)); [|discriminate]. injection E as <-. cbn [ci_ag ci_av ci_aa]. lia. }
  intros i l m. unfold setCutInfo. cbv zeta. destruct (fold_left merge_one l _) as [x|] eqn:E; [|discriminate].
  destruct (take_labels (map (fun o => (ci_num o, ci_type o)) l)); [|discriminate]. destruct (take_labels _); [|discriminate].
  intro H. injection H as <-. cbn [set_labels ci_ag ci_av ci_aa]. destruct (G _ _ _ E) as (-> & -> & ->). cbn [cleared ci_ag ci_av ci_aa]. lia.
Qed.
Print Assumptions merge_active.

(** So the objectives tried and the failures reported for a run are those of its rounds, in total and for every heuristic and kind of failure. *)
Definition tried (f : gstate -> Z) (r : vround) : Z := match r with Generated g => f g | NoVPC => 0%Z end.
Theorem run_attempts : forall eps rs xg xv xa ig gmics ig' iv, Forall round_ok rs ->
  run_statistics eps rs xg xv xa ig gmics = Some (ig', iv) ->
  ci_obj iv = Zsum (map (tried (fun g => Z.of_nat (g_num_obj g))) rs) /\ ci_fail iv = Zsum (map (tried (fun g => Z.of_nat (g_num_fail g))) rs) /\
  (forall h, vec (ci_nobj iv) h = Zsum (map (tried (fun g => g_nobj g h)) rs)) /\
  (forall h, vec (ci_nfailheur iv) h = Zsum (map (tried (fun g => g_nfailheur g h)) rs)) /\
  (forall f, vec (ci_nfails iv) f = Zsum (map (tried (fun g => g_nfails g f)) rs)).
Proof.
  intros eps rs xg xv xa ig gmics ig' iv R. unfold run_statistics.
  destruct (all_infos eps rs) as [l|] eqn:A; [|discriminate].
  assert (G : Forall complete l /\ Zsum (map ci_obj l) = Zsum (map (tried (fun g => Z.of_nat (g_num_obj g))) rs) /\
     Zsum (map ci_fail l) = Zsum (map (tried (fun g => Z.of_nat (g_num_fail g))) rs) /\
     (forall h, Zsum (map (fun o => vec (ci_nobj o) h) l) = Zsum (map (tried (fun g => g_nobj g h)) rs)) /\
     (forall h, Zsum (map (fun o => vec (ci_nfailheur o) h) l) = Zsum (map (tried (fun g => g_nfailheur g h)) rs)) /\
     (forall f, Zsum (map (fun o => vec (ci_nfails o) f) l) = Zsum (map (tried (fun g => g_nfails g f)) rs))).
  { revert l A R. induction rs as [|r rs IH]; intros l A R; cbn [all_infos] in A.
    - injection A as <-. split; [constructor|]. repeat split; reflexivity.
    - inversion_clear R as [|? ? R1 R2]. destruct (round_info_ok eps r R1) as (i & I1 & I2 & _). rewrite I1 in A.
      destruct (all_infos eps rs) as [k|]; [|discriminate]. injection A as <-. destruct (IH k eq_refl R2) as (J0 & J1 & J2 & J3 & J4 & J5).
      assert (D : ci_obj i = tried (fun g => Z.of_nat (g_num_obj g)) r /\ ci_fail i = tried (fun g => Z.of_nat (g_num_fail g)) r /\
        (forall h, vec (ci_nobj i) h = tried (fun g => g_nobj g h) r) /\ (forall h, vec (ci_nfailheur i) h = tried (fun g => g_nfailheur g h) r) /\
        (forall f, vec (ci_nfails i) f = tried (fun g => g_nfails g f) r)).
      { destruct r as [g|]; cbn [round_info tried] in *.
        - destruct R1 as ((_ & _ & _ & A4 & _) & I0 & _). rewrite I0 in A4. cbn [Nat.add] in A4.
          assert (L : length (map ec (g_cuts g)) = g_num_cuts g) by (rewrite map_length; lia).
          destruct (update_adds ci_new g [] (map ec (g_cuts g)) eps i L I1) as (_ & _ & U1 & U2 & _ & _ & _ & _ & _ & _ & U3 & U4 & _).
          cbn [ci_new ci_obj ci_fail ci_nheur ci_nobj ci_nfailheur ci_nfails vec] in *. destruct U4 as (_ & U4 & U5); [tauto..|].
          rewrite U1, U2. split; [lia|]. split; [lia|]. split; [intro h; rewrite U4; lia|]. split; [intro h; rewrite U5; lia|]. intro f; rewrite U3; lia.
        - injection I1 as <-. repeat split; reflexivity. }
      destruct D as (D1 & D2 & D3 & D4 & D5). split; [constructor; assumption|]. cbn [map Zsum]. rewrite D1, D2, J1, J2.
      split; [reflexivity|]. split; [reflexivity|]. split; [intro h; rewrite D3, J3; reflexivity|]. split; [intro h; rewrite D4, J4; reflexivity|]. intro f; rewrite D5, J5; reflexivity. }
  destruct G as (C & G1 & G2 & G3 & G4 & G5). destruct (merge_sums ci_new l C) as (m & M1 & _ & _ & M2 & M3 & _ & _ & _ & _ & _ & _ & _ & _ & _ & _ & M4 & M5 & M6 & _).
  rewrite M1. unfold analyzeStrength. destruct (active_heur _ _ _ _); [|discriminate]. intro E. injection E as _ <-. cbn [set_activity ci_obj ci_fail ci_nobj ci_nfailheur ci_nfails].
  rewrite M2, M3, G1, G2. split; [reflexivity|]. split; [reflexivity|]. split; [intro h; rewrite M4; apply G3|]. split; [intro h; rewrite M5; apply G4|]. intro f; rewrite M6; apply G5.
Qed.
Print Assumptions run_attempts.
(** Every call of a fresh generator with an empty pool makes such a round. *)
Lemma call_round : forall E v o v' cuts, generateCuts E v [] o = Some (v', cuts) -> past_entry v o -> g_repeat (v_g v) = false -> round_ok (Generated (v_g v')).
Proof.
  intros E v o v' cuts H P R. pose proof (bookkeeping_aligned E v [] o v' cuts H P (or_introl R)) as B. cbv zeta in B. destruct B as (B1 & B2 & B3 & B4 & B5 & B6 & B7 & _).
  destruct (generateCuts_ind (fun g => g_init g = 0%nat /\ g_repeat g = false) E v [] o v' cuts H P) as [[I0 R0] _].
  - intros g [g0 [Hb ->]]. unfold beginRound in Hb. cbv zeta in Hb. destruct (_ && _) in Hb; [discriminate|]. injection Hb as <-. cbn. auto.
  - intros fs g K. exact K.
  - intros j g K. exact K.
  - intros c g _ K _ _. exact K.
  - intros g id _ [g0 [Hb ->]] _. unfold beginRound in Hb. cbv zeta in Hb. destruct (_ && _) in Hb; [discriminate|]. injection Hb as <-. cbn. auto.
  - intros a g g' n _ [K1 K2] Hg. apply genCut_effect in Hg. destruct Hg as [g1 m He -> _ _].
    assert (R1 : g_init g1 = 0%nat /\ g_repeat g1 = false).
    { destruct He as [| |i oc g1 ? ? ? ? ? ? ? Hr]; [split; assumption|split; assumption|]. unfold replaceCut in Hr.
      destruct (nth_error (g_heur _) _); [|discriminate]. destruct (nth_error (g_type _) _); [|discriminate]. injection Hr as <-. split; assumption. }
    exact R1.
  - subst cuts. unfold round_ok, aligned. rewrite I0. exact (conj (conj B3 (conj B4 (conj B5 (conj B2 (conj B6 B7))))) (conj eq_refl R0)).
Qed.
(** A round of one-sided cut and cuts, then one without. *)
Definition exv2 : vpc := match generateCuts exE exv [] exo with Some (v, _) => v | None => exv end.
Definition exg2 : gstate := v_g exv2.
Example run_statistics_ex : Forall round_ok [Generated exg2; NoVPC; Generated exg2] /\
  exists ig iv, run_statistics EPS7 [Generated exg2; NoVPC; Generated exg2] None (Some (fun _ => 1)) None ci_new (Some []) = Some (ig, iv) /\
  ci_num iv = 6%Z /\ ci_av iv = 2%Z /\ vec (ci_nact iv) ONE_SIDED = 2%Z /\ ci_avg ig = None.
Proof.
  assert (K : round_ok (Generated exg2)).
  { apply (call_round exE exv exo exv2 (g_cuts exg2)); [vm_compute; reflexivity|split; [right; discriminate|reflexivity]|reflexivity]. }
  split; [constructor; [exact K|constructor; [exact Logic.I|constructor; [exact K|constructor]]]|]. eexists. eexists. split; [vm_compute; reflexivity|]. vm_compute. auto.
Qed.

(** ** Repeated use: several calls into one pool, the generator keeping its labels (as mode CUSTOM means to do, one call
    per disjunction). *)
Definition rep_labels (g : gstate) : Prop :=
  length (g_type g) = length (g_cuts g) /\ length (g_heur g) = length (g_cuts g) /\ length (g_disj g) = length (g_cuts g) /\ length (g_cuts g) = (g_init g + g_num_cuts g)%nat /\ g_repeat g = true.
Lemma rep_labels_insert g c t h d : rep_labels g -> rep_labels (insertCut g c t h d).
Proof. unfold rep_labels, insertCut. cbn [g_type g_heur g_disj g_cuts g_init g_num_cuts g_repeat]. rewrite !app_length. cbn [length]. intros (A & B & C & D & E). repeat split; try lia; assumption. Qed.
Lemma rep_labels_genCut E g a g' n : rep_labels g -> genCut E g a = Some (g', n) -> rep_labels g'.
Proof.
  intros R H. apply genCut_effect in H. destruct H as [g1 m He -> _ _].
  assert (R0 : rep_labels (countObjective g (a_heur a))) by exact R.
  assert (R1 : rep_labels g1).
  { destruct He as [| |i oc g1 ? ? ? ? ? ? ? Hr]; [exact R0|apply rep_labels_insert; exact R0|].
    unfold replaceCut in Hr. destruct (nth_error (g_heur _) _); [|discriminate]. destruct (nth_error (g_type _) _); [|discriminate]. injection Hr as <-.
    unfold rep_labels in *. cbn [g_type g_heur g_disj g_cuts g_init g_num_cuts g_repeat] in *. rewrite !set_nth_length. exact R0. }
  exact R1.
Qed.
(** The labels of the generator are for the cuts of the pool. *)
Definition labels_of (g : gstate) (pool : list ecut) : Prop :=
  length (g_type g) = length pool /\ length (g_heur g) = length pool /\ length (g_disj g) = length pool /\ g_repeat g = true.
Lemma repeated_call E v given o v' cuts : generateCuts E v given o = Some (v', cuts) -> past_entry v o -> labels_of (v_g v) given ->
  labels_of (v_g v') cuts /\ cuts = g_cuts (v_g v') /\ length cuts = (length given + g_num_cuts (v_g v'))%nat.
Proof.
  intros H He (L1 & L2 & L3 & L4).
  assert (FR : forall g, fresh_state v given o g -> rep_labels g /\ g_init g = length given).
  { intros g [g00 [Hb ->]]. unfold beginRound in Hb. cbv zeta in Hb. cbn [with_mode setupAsNew g_repeat g_canrep g_type g_heur g_disj] in Hb. rewrite L4 in Hb.
    destruct (_ && _) eqn:E1 in Hb; [discriminate|]. injection Hb as <-. unfold rep_labels. cbn [with_limit g_type g_heur g_disj g_cuts g_init g_num_cuts g_repeat].
    destruct given; cbn [Nat.eqb length] in *; repeat split; lia. }
  destruct (generateCuts_ind (fun g => rep_labels g /\ g_init g = length given) E v given o v' cuts H He) as [[(A & B & C & D & F) Hi] ->].
  - exact FR.
  - intros fs g0 K. exact K.
  - intros j g0 K. exact K.
  - intros c g0 _ [K Hi] _ _. split; [apply rep_labels_insert; exact K|exact Hi].
  - intros g0 id _ F _. destruct (FR g0 F) as [K Hi]. split; [apply rep_labels_insert; exact K|exact Hi].
  - intros a g0 g' n _ [K Hi] Hg. split; [eapply rep_labels_genCut; eassumption|]. apply genCut_frame in Hg. destruct Hg as [Hg _]. congruence.
  - unfold labels_of. repeat split; auto. lia.
Qed.
(** Calls of one generator, each getting past the first checks, starting from the given labels and pool (between calls
    parameters and disjunction may be set). *)
Inductive calls : gstate -> list ecut -> list gstate -> Prop :=
| calls_nil g pool : calls g pool []
| calls_cons g pool E v o v' cuts rest : v_g v = g -> past_entry v o -> generateCuts E v pool o = Some (v', cuts) ->
    calls (v_g v') cuts rest -> calls g pool (v_g v' :: rest).
(** Then the count is right, and so are the numbers of labels. *)
Theorem repeated_counts : forall eps g0 states, labels_of g0 [] -> calls g0 [] states ->
  exists i, custom_round eps ci_new 0 states = Some (i, ci_num i) /\
  ci_num i = Zsum (map (fun g => Z.of_nat (g_num_cuts g)) states) /\
  ci_obj i = Zsum (map (fun g => Z.of_nat (g_num_obj g)) states) /\
  (forall g, last (map Some states) None = Some g -> ci_num i = Z.of_nat (length (g_cuts g)) /\ ci_type i = g_type g /\ ci_heur i = g_heur g /\ complete i).
Proof.
  intros eps g0 states L C.
  assert (G : forall g pool states, calls g pool states -> labels_of g pool -> forall i z,
     ci_num i = Z.of_nat (length pool) -> ci_num i = z -> (ci_nheur i = None <-> ci_nobj i = None /\ ci_nfailheur i = None) -> (ci_nheur i <> None -> ci_nobj i <> None /\ ci_nfailheur i <> None) ->
     exists i', custom_round eps i z states = Some (i', ci_num i') /\
       ci_num i' = (ci_num i + Zsum (map (fun g => Z.of_nat (g_num_cuts g)) states))%Z /\ ci_obj i' = (ci_obj i + Zsum (map (fun g => Z.of_nat (g_num_obj g)) states))%Z /\
       (forall g, last (map Some states) None = Some g -> ci_num i' = Z.of_nat (length (g_cuts g)) /\ ci_type i' = g_type g /\ ci_heur i' = g_heur g /\ complete i')).
  { clear. intros g pool states C. induction C as [g pool|g pool E v o v' cuts rest Hg P H C IH]; intros L i z I1 I2 I3 I4.
    - exists i. cbn [custom_round map Zsum]. rewrite I2. split; [reflexivity|]. split; [lia|]. split; [lia|]. intros g1 K. discriminate K.
    - subst g. destruct (repeated_call E v pool o v' cuts H P L) as (L' & EC & LC). specialize (IH L'). cbn [custom_round]. unfold updateCutInfo at 1. rewrite map_length, <- EC, LC.
      destruct (Nat.ltb_spec (length pool + g_num_cuts (v_g v')) (g_num_cuts (v_g v'))) as [K|_]; [lia|]. rewrite I1.
      assert (T : (Nat.ltb (g_num_cuts (v_g v')) (length pool + g_num_cuts (v_g v')) && negb (Z.of_nat (length pool + g_num_cuts (v_g v')) =? Z.of_nat (length pool) + Z.of_nat (g_num_cuts (v_g v')))%Z)%bool = false).
      { destruct (Z.eqb_spec (Z.of_nat (length pool + g_num_cuts (v_g v'))) (Z.of_nat (length pool) + Z.of_nat (g_num_cuts (v_g v')))); [apply andb_false_r|lia]. }
      rewrite T. set (j := Build_cutinfo _ _ _ _ _ _ _ _ _ _ _ _ _ _ _ _ _ _). destruct L' as (T1 & T2 & T3 & T4).
      assert (NV : ci_ntype j <> None /\ ci_nheur j <> None /\ ci_nobj j <> None /\ ci_nfailheur j <> None /\ ci_nfails j <> None).
      { subst j. cbn [ci_ntype ci_nheur ci_nobj ci_nfailheur ci_nfails]. split; [destruct (ci_ntype i); discriminate|]. destruct (ci_nheur i) as [fh|] eqn:FH; cbn [add_vec_as].
        - destruct (I4 ltac:(discriminate)) as [J1 J2]. destruct (ci_nobj i); [|congruence]. destruct (ci_nfailheur i); [|congruence]. repeat split; try discriminate. destruct (ci_nfails i); discriminate.
        - repeat split; try discriminate. destruct (ci_nfails i); discriminate. }
      destruct (IH j (z + Z.of_nat (g_num_cuts (v_g v')))%Z) as (i' & R1 & R2 & R3 & R4).
      { subst j. cbn [ci_num]. rewrite LC. lia. }
      { subst j. cbn [ci_num]. lia. }
      { destruct NV as (_ & N1 & N2 & N3 & _). split; [congruence|intros [? ?]; congruence]. }
      { intros _. destruct NV as (_ & N1 & N2 & N3 & _). auto. }
      exists i'. split; [exact R1|]. cbn [map Zsum]. subst j. cbn [ci_num ci_obj] in R2, R3. split; [lia|]. split; [lia|].
      intros g1 LA. destruct rest as [|r1 rest].
      + cbn in LA. injection LA as <-. cbn [custom_round] in R1. injection R1 as R1 _. rewrite <- R1 in *. cbn [ci_num ci_type ci_heur] in *. rewrite T4. rewrite <- EC.
        split; [lia|]. split; [reflexivity|]. split; [reflexivity|]. unfold complete. cbn [ci_num ci_type ci_heur]. split; [lia|]. split; [lia|]. split; [lia|]. exact NV.
      + apply R4. exact LA. }
  destruct (G g0 [] states C L ci_new 0%Z) as (i & A1 & A2 & A3 & A4); try reflexivity.
  - cbn. tauto.
  - cbn. congruence.
  - exists i. cbn [ci_num ci_obj ci_new] in A2, A3. split; [exact A1|]. split; [lia|]. split; [lia|]. exact A4.
Qed.
Print Assumptions repeated_counts.
Definition cg0 : gstate := repg false [] [] [].
Definition cv0 : vpc := with_g exv cg0.
Definition call1 := one_run [okat ALL_ONES (mkc [(0%nat, 1); (1%nat, 1)] 1)].
Definition call2 := one_run [okat DISJ_LB (mkc [(2%nat, 1); (3%nat, 1)] 1)].
Definition cv1 : vpc := match generateCuts exE cv0 [] call1 with Some (v, _) => v | None => cv0 end.
Lemma same_g v : v_g (with_disj v false false) = v_g v.
Proof. reflexivity. Qed.
Definition cv1' : vpc := with_disj cv1 false false.
Definition cv2 : vpc := match generateCuts exE cv1' (g_cuts (v_g cv1)) call2 with Some (v, _) => v | None => cv0 end.
Example repeated_meets : calls cg0 [] [v_g cv1; v_g cv2] /\ labels_of cg0 [] /\ length (g_cuts (v_g cv2)) = 2%nat.
Proof.
  split; [|split; [repeat split|vm_compute; reflexivity]].
  eapply (calls_cons cg0 [] exE cv0 call1 cv1 (g_cuts (v_g cv1))); [reflexivity|split; [right; discriminate|reflexivity]|vm_compute; reflexivity|].
  apply (calls_cons (v_g cv1) (g_cuts (v_g cv1)) exE cv1' call2 cv2 (g_cuts (v_g cv2)) []).
  - exact (same_g cv1).
  - split; [right; vm_compute; discriminate|vm_compute; reflexivity].
  - vm_compute. reflexivity.
  - constructor.
Qed.

(** A call that stops at once because time is up leaves the counters of the call before: its cuts are counted again, the
    summary says two cuts where there is one, and merging the rounds then reads a label that does not exist. *)
Definition late : callans := let o := call1 in {| ca_time0 := true; ca_nfrac := ca_nfrac o; ca_nfrac_default := ca_nfrac_default o; ca_optimal := ca_optimal o; ca_disj := ca_disj o;
  ca_objcut := ca_objcut o; ca_objcut_disj := ca_objcut_disj o; ca_root := ca_root o; ca_root_ok := ca_root_ok o; ca_root_fails := ca_root_fails o; ca_setsize := ca_setsize o; ca_run := ca_run o |}.
Theorem repeated_stale_refuted : exists v1 cuts v2 i,
  generateCuts exE cv0 [] call1 = Some (v1, cuts) /\ length cuts = 1%nat /\
  generateCuts exE v1 cuts late = Some (v2, cuts) /\
  custom_round EPS7 ci_new 0 [v_g v1; v_g v2] = Some (i, 2%Z) /\ ci_num i = 2%Z /\ setCutInfo ci_new [i] = None.
Proof.
  exists cv1, (g_cuts (v_g cv1)). eexists. eexists. split; [vm_compute; reflexivity|]. split; [reflexivity|]. split; [vm_compute; reflexivity|]. split; [vm_compute; reflexivity|]. split; reflexivity.
Qed.
Print Assumptions repeated_stale_refuted.
(** The average support kept during the round counts the earlier cuts twice in the divisor: two cuts, each with two
    coefficients, average 4/3. *)
Theorem repeated_average_refuted : exists i, custom_round EPS7 ci_new 0 [v_g cv1; v_g cv2] = Some (i, 2%Z) /\
  Forall (fun c => length (support EPS7 (ec c)) = 2%nat) (g_cuts (v_g cv2)) /\ exists a, ci_avg i = Some a /\ a == 4 # 3.
Proof.
  eexists. split; [vm_compute; reflexivity|]. split; [vm_compute; repeat constructor|]. eexists. split; [vm_compute; reflexivity|]. vm_compute. reflexivity.
Qed.
Print Assumptions repeated_average_refuted.
(** A generator that has a disjunction already — set by the user, as mode CUSTOM does, or left from its previous call —
    never adds a cut: the call returns at one of its first checks or ends the program ("mode not implemented"). *)
Theorem preset_disjunction_refuted : forall E v given o, v_disj v = true \/ v_set v = true ->
  (forall v' cuts, generateCuts E v given o = Some (v', cuts) -> cuts = given) /\
  (past_entry v o -> (0 < g_limit (v_g v))%Z -> generateCuts E v given o = None).
Proof.
  intros E v given o D.
  assert (D' : forall w, v_disj w = v_disj v -> v_set w = v_set v -> negb (v_disj w) && negb (v_set w) = false).
  { intros w -> ->. destruct D as [-> | ->]; [reflexivity|apply andb_false_r]. }
  unfold generateCuts. cbv zeta. cbn [with_g v_g].
  destruct (beginRound (with_mode (v_g v) (v_pmode v)) given) as [g0|] eqn:B.
  - assert (B' : g_limit g0 = g_limit (v_g v) /\ g_num_cuts g0 = 0%nat /\ g_cuts g0 = given).
    { unfold beginRound in B. cbv zeta in B. destruct (_ && _) in B; [discriminate|]. injection B as <-. cbn. auto. }
    destruct B' as (B1 & B2 & B3). rewrite (D' v eq_refl eq_refl). split.
    + intros v' cuts. destruct (negb _ && _); [intro H; injection H as _ <-; reflexivity|]. destruct (ca_time0 o); [intro H; injection H as _ <-; reflexivity|].
      destruct (reachedCutLimit _ && negb (v_tikz v)); [intro H; injection H as _ <-; exact B3|discriminate].
    + intros [P1 P2] L. rewrite P2. assert (F : negb (match v_pmode v with DISJ_SET_PBB => true | _ => false end) && (v_terms v =? 0)%Z = false).
      { destruct P1 as [-> |P1]; [reflexivity|]. destruct (Z.eqb_spec (v_terms v) 0); [contradiction|apply andb_false_r]. }
      rewrite F. assert (R : reachedCutLimit (with_limit g0 (getCutLimit (g_limit g0) (ca_nfrac o))) = false).
      { unfold reachedCutLimit, countDisj. cbn [with_limit g_mode g_limit g_num_cuts g_disj g_curr]. rewrite B2. cbn [firstn filter length]. unfold getCutLimit. rewrite B1.
        destruct (Z.eqb_spec (g_limit (v_g v)) 0); [lia|]. destruct (Z.ltb_spec 0 (g_limit (v_g v))); [|lia]. destruct (g_mode g0); apply Z.leb_gt; lia. }
      rewrite R. reflexivity.
  - split; [|intros [P1 P2] _; rewrite P2; destruct (negb _ && _) eqn:F; [|reflexivity]].
    + intros v' cuts. destruct (negb _ && _); [intro H; injection H as _ <-; reflexivity|]. destruct (ca_time0 o); [intro H; injection H as _ <-; reflexivity|discriminate].
    + destruct P1 as [P1|P1]; [rewrite P1 in F; discriminate F|]. destruct (Z.eqb_spec (v_terms v) 0); [contradiction|]. rewrite andb_false_r in F. discriminate.
Qed.
Print Assumptions preset_disjunction_refuted.
Example preset_meets : v_disj cv1 = true /\ past_entry cv1 call2 /\ generateCuts exE cv1 (g_cuts (v_g cv1)) call2 = None.
Proof. split; [vm_compute; reflexivity|]. split; [split; [right; vm_compute; discriminate|reflexivity]|vm_compute; reflexivity]. Qed.

(** If no disjunction was found in mode CUSTOM the summary of the round stays empty, and merging reads past its end. *)
Theorem custom_none_refuted : forall l r, setCutInfo ci_new (l ++ ci_new :: r) = None.
Proof.
  intros l r. unfold setCutInfo. cbv zeta. rewrite fold_left_app. cbn [fold_left].
  assert (N : forall k, fold_left merge_one k None = None) by (intro k; induction k as [|? ? IH]; [reflexivity|exact IH]).
  assert (M : forall a, merge_one a ci_new = None).
  { intros [a|]; [|reflexivity]. unfold merge_one. destruct (vec_sum (ci_ntype a) (ci_ntype ci_new)) eqn:E; [|reflexivity]. destruct (ci_ntype a); discriminate E. }
  rewrite M, N. reflexivity.
Qed.
Print Assumptions custom_none_refuted.
(** The shares of the cut limit: the quotient of ints is rounded down before "ceil", so together they never exceed the
    limit, but with more disjunctions than cuts allowed every share is 0, and no call produces a cut. *)
Theorem custom_shares : forall limit n, (0 <= limit)%Z -> (0 < n)%Z ->
  (0 <= custom_limit limit n)%Z /\ (n * custom_limit limit n <= limit)%Z /\ (limit < n * (custom_limit limit n + 1))%Z /\
  ((limit < n)%Z <-> custom_limit limit n = 0%Z).
Proof.
  intros limit n H1 H2. unfold custom_limit. rewrite Z.quot_div_nonneg by lia.
  pose proof (Z.div_mod limit n ltac:(lia)) as D. pose proof (Z.mod_pos_bound limit n H2) as M. pose proof (Z.div_pos limit n H1 H2) as P.
  split; [exact P|]. split; [lia|]. split; [lia|]. split; [intro; apply Z.div_small; lia|intro K; rewrite K in D; lia].
Qed.
Print Assumptions custom_shares.
Theorem custom_share_zero_refuted : forall E v given o v' cuts, generateCuts E v given o = Some (v', cuts) -> g_limit (v_g v) = 0%Z -> v_tikz v = false -> cuts = given.
Proof.
  intros E v given o v' cuts H L T. unfold generateCuts in H. cbv zeta in H.
  destruct (negb _ && _); [injection H as _ <-; reflexivity|]. destruct (ca_time0 o); [injection H as _ <-; reflexivity|].
  cbn [with_g v_g] in H. destruct (beginRound (with_mode (v_g v) (v_pmode v)) given) as [g0|] eqn:B; [|discriminate].
  assert (B' : g_limit g0 = 0%Z /\ g_num_cuts g0 = 0%nat /\ g_cuts g0 = given).
  { unfold beginRound in B. cbv zeta in B. destruct (_ && _) in B; [discriminate|]. injection B as <-. cbn. auto. }
  destruct B' as (B1 & B2 & B3). rewrite T, B1 in H. cbn [getCutLimit Z.eqb negb] in H.
  assert (R : reachedCutLimit (with_limit g0 (getCutLimit 0 (ca_nfrac o))) = true).
  { unfold reachedCutLimit. cbn [with_limit g_mode g_limit g_num_cuts]. change (getCutLimit 0 (ca_nfrac o)) with 0%Z. destruct (g_mode g0); apply Z.leb_le; lia. }
  change (getCutLimit 0 (ca_nfrac o)) with 0%Z in *. rewrite R in H. cbn [andb] in H. injection H as _ <-. exact B3.
Qed.
Print Assumptions custom_share_zero_refuted.

(** ** The statistics of the disjunctions. *)
(** With one disjunction in the whole run they are its values. *)
Theorem one_disjunction : forall p d, let i := updateDisjInfo di_new 1 (Some p) [d] in
  di_num i = 1%Z /\ di_int i = (if dd_int d then 1 else 0)%Z /\ di_terms i == inject_Z (dd_terms d) /\ di_density i == pp_density p /\
  di_rows i == inject_Z (pp_rows p) /\ di_cols i == inject_Z (pp_cols p) /\ di_points i == inject_Z (pp_points p) /\ di_rays i == inject_Z (pp_rays p) /\
  (forall e q mn mx, dd_tree d = Some (e, q, mn, mx) -> di_expl i == inject_Z e /\ di_pruned i == inject_Z q /\ di_mind i == inject_Z mn /\ di_maxd i == inject_Z mx).
Proof.
  intros p d i. assert (K : forall v, step_avg 1 0 v == v) by (intro v; unfold step_avg; change (inject_Z (1 - 1)) with 0; change (inject_Z 1) with 1; field).
  subst i. unfold updateDisjInfo. cbn [Z.leb Z.compare fold_left]. unfold disj_step. cbn [di_num di_int di_terms di_density di_rows di_cols di_points di_rays di_expl di_pruned di_mind di_maxd di_new].
  split; [reflexivity|]. split; [destruct (dd_int d); reflexivity|]. rewrite !K, !Qplus_0_l. do 6 (split; [reflexivity|]).
  intros e q mn mx ->. cbn [fst snd]. rewrite !K, !Qplus_0_l. repeat split; reflexivity.
Qed.
Print Assumptions one_disjunction.
(** A round of several disjunctions: the averages use the total number in every step, so they are wrong already for the terms. *)
Definition ed (t : Z) : dinfo := {| dd_int := false; dd_terms := t; dd_tree := Some (10, 2, 1, 3)%Z |}.
Definition ep : pinfo := {| pp_density := 1 # 2; pp_rows := 8; pp_cols := 3; pp_points := 4; pp_rays := 4 |}.
Theorem disjunction_average_refuted :
  di_terms (updateDisjInfo di_new 2 (Some ep) [ed 4; ed 4]) == 3 /\
  (forall k, (0 < k)%Z -> forall i, di_rows (disj_step k ep i (ed 4)) == di_rows i + (di_rows i * inject_Z (k - 1) + 8) / inject_Z k) /\
  (* Two rounds of one disjunction each, both with 8 rows: *)
  di_rows (updateDisjInfo (updateDisjInfo di_new 1 (Some ep) [ed 4]) 2 (Some ep) [ed 4]) == 16 /\
  di_expl (updateDisjInfo (updateDisjInfo di_new 1 (Some ep) [ed 4]) 2 (Some ep) [ed 4]) == 20 /\
  di_terms (updateDisjInfo (updateDisjInfo di_new 1 (Some ep) [ed 4]) 2 (Some ep) [ed 4]) == 4.
Proof. split; [reflexivity|]. split; [intros k K i; reflexivity|]. repeat split; reflexivity. Qed.
Print Assumptions disjunction_average_refuted.
(** With one disjunction per round the numbers of terms and the density are averaged correctly, whatever the rounds. *)
Fixpoint by_round (i : disjinfo) (n : Z) (l : list (pinfo * dinfo)) : disjinfo :=
  match l with [] => i | (p, d) :: r => by_round (updateDisjInfo i (n + 1) (Some p) [d]) (n + 1) r end.
Theorem one_per_round : forall l, l <> [] -> let i := by_round di_new 0 l in
  di_num i = Z.of_nat (length l) /\
  di_terms i * inject_Z (di_num i) == inject_Z (Zsum (map (fun x => dd_terms (snd x)) l)) /\
  di_density i * inject_Z (di_num i) == Qsum (map (fun x => pp_density (fst x)) l).
Proof.
  intros l NE.
  assert (G : forall l i n, (0 <= n)%Z -> l <> [] -> let i' := by_round i n l in
    di_num i' = (n + Z.of_nat (length l))%Z /\
    di_terms i' * inject_Z (di_num i') == di_terms i * inject_Z n + inject_Z (Zsum (map (fun x => dd_terms (snd x)) l)) /\
    di_density i' * inject_Z (di_num i') == di_density i * inject_Z n + Qsum (map (fun x => pp_density (fst x)) l)).
  { clear. intro l. induction l as [|[p d] l IH]; intros i n N NE; [congruence|]. cbn [by_round length map Zsum fst snd].
    assert (NZ : ~ inject_Z (n + 1) == 0) by (intro K; unfold Qeq in K; cbn in K; lia).
    assert (U : forall i, di_num (updateDisjInfo i (n + 1) (Some p) [d]) = (n + 1)%Z /\
       di_terms (updateDisjInfo i (n + 1) (Some p) [d]) * inject_Z (n + 1) == di_terms i * inject_Z n + inject_Z (dd_terms d) /\
       di_density (updateDisjInfo i (n + 1) (Some p) [d]) * inject_Z (n + 1) == di_density i * inject_Z n + pp_density p).
    { intro j. unfold updateDisjInfo. destruct (Z.leb_spec (n + 1) 0) as [K|_]; [lia|]. cbn [fold_left]. unfold disj_step. cbn [di_num di_terms di_density]. unfold step_avg.
      replace (n + 1 - 1)%Z with n by lia. split; [reflexivity|]. split; field; exact NZ. }
    destruct (U i) as (U1 & U2 & U3). destruct l as [|x l].
    - cbn [by_round length map Zsum Qsum fold_right] in *. rewrite U1. split; [reflexivity|]. rewrite U2, U3. split; [rewrite Z.add_0_r; reflexivity|]. unfold Qsum. cbn. ring.
    - destruct (IH (updateDisjInfo i (n + 1) (Some p) [d]) (n + 1)%Z ltac:(lia) ltac:(discriminate)) as (H1 & H2 & H3). cbv zeta. rewrite H1 in *. split; [cbn [length]; lia|].
      split; [rewrite H2, U2, inject_Z_plus; ring|]. rewrite H3, U3. unfold Qsum. cbn [fold_right]. ring. }
  destruct (G l di_new 0%Z ltac:(lia) NE) as (H1 & H2 & H3). cbv zeta in *. split; [exact H1|]. split; [rewrite H2; cbn [di_terms di_new]; ring|rewrite H3; cbn [di_density di_new]; ring].
Qed.
Print Assumptions one_per_round.
