(** C55: the whole pipeline.  Cuts returned by a call are satisfied by every integer-feasible point of the
    problem: disjunction -> problems of the terms -> points and rays -> PRLP -> cut -> cleaning ->
    bookkeeping, put together from the separately modelled steps. *)
From Verif Require Import Prelude Model.Tolerance Model.LP Model.BasisStatus Model.NBSpace Model.PRCollection
  Model.CutHelper Model.Disjunction Model.EventHandler Model.Setup Model.PRLPSetup Model.Generator Model.Generate
  Spec.TreeSpec Spec.LPSpec Spec.NBSpec Spec.TermSpec Spec.CutSpec Spec.DisjSpec Spec.PRLPSpec
  Proofs.DisjunctionP Proofs.PRLPSetupP Proofs.GenExamples
  Properties.C06_tree_coverage Properties.C05_Split Properties.C04_TermRelaxed Properties.C01_CutValidity
  Properties.C09_PRLPSetup Properties.C13_RemoveSmall Properties.C21_OneCut.
From Coq Require Import Permutation.

(** How a cut comes out of a disjunction [d] of the problem [P] (exact arithmetic: the tolerances that only
    suppress rounding noise are 0):
    the root problem is [P] with the common changes, each term's problem adds the term's changes and rows,
    every term's problem is solved by a solver that keeps its contract, the points and rays are collected, the
    PRLP solution satisfies all their constraints, and the structural cut is cleaned within bounds that the
    points of [P] respect. *)
Record production (P : lp) (d : disj) (c : cut) : Type := {
  p_prm : prparams; p_g : rootdata; p_ds : list dterm; p_isol : option (nat -> Q); p_ks : list prconstr;
  p_nz : list nat; p_coeff : nat -> Q; p_scale : Q; p_box : lp; p_epscoeff : Q;
  p_root : glp p_g = root_lp P d;
  p_terms : Forall2 (fun t dt => tlp (dt_solver dt) = setup_term_lp (glp p_g) t) (d_terms d) p_ds;
  p_solved : forall dt, In dt p_ds -> processed dt /\ term_contract p_g (dt_solver dt);
  p_setup : setupConstraints p_prm p_g p_isol p_ds = Some p_ks;
  p_eps : pEPS p_prm = 0; p_rayeps : pRAYEPS p_prm = 0;
  p_rootok : C01_CutValidity.root_ok p_g; p_cols : columns_ok p_g p_nz;
  p_sol : prlp_feasible (ncols (glp p_g)) p_scale p_ks (nbcoef p_nz p_coeff);
  p_within : ncols p_box = ncols P /\ forall x, feasible P x -> sat_common d x -> in_box p_box x;
  p_cut : c = removeSmallCoefficients (prlp_cut p_prm p_g p_nz p_coeff p_scale 0) p_box 0 p_epscoeff
}.

Lemma root_lp_keeps P d x : feasible P x -> sat_common d x -> feasible (root_lp P d) x.
Proof.
  intros F [C R]. unfold root_lp. apply feasible_add_rows. split; [|exact R]. apply set_bounds_keep; assumption.
Qed.
Lemma setup_term_lp_keeps R t x : feasible R x -> in_term t x -> feasible (setup_term_lp R t) x.
Proof.
  intros F [C I]. unfold setup_term_lp. apply feasible_add_rows. split; [|exact I]. apply set_bounds_keep; assumption.
Qed.
Lemma root_lp_ncols P d : ncols (root_lp P d) = ncols P.
Proof. unfold root_lp. rewrite add_rows_ncols, set_bounds_ncols. reflexivity. Qed.

(** Such a cut is satisfied by every feasible point that the disjunction contains. *)
Theorem produced_cut_valid P d c (p : production P d c) :
  forall x, feasible P x -> in_disj d x -> satisfies_cut c x.
Proof.
  destruct p as [prm g ds isol ks nz coeff scale box ec RT TM SV SU E1 E2 RO CO SO [W1 W2] ->]. cbn.
  intros x F [SC (t & IT & XT)].
  apply remove_small_valid.
  - intros e He. unfold prlp_cut, setCutFromNBCoefficients, NBSpace.setOsiRowCut in He. cbn [crow] in He.
    apply in_flat_map in He. destruct He as (i & I & J). apply in_seq in I. rewrite RT, root_lp_ncols in I.
    destruct (isZero _ _) in J; [destruct J|]. destruct J as [<-|[]]. cbn [fst]. lia.
  - apply W2; assumption.
  - assert (X : exists dt, In dt ds /\ tlp (dt_solver dt) = setup_term_lp (glp g) t).
    { clear -TM IT. induction TM as [|a b l l' H HH IH]; [destruct IT|]. destruct IT as [->|IT].
      - exists b. split; [left; reflexivity|exact H].
      - destruct (IH IT) as (dt & D1 & D2). exists dt. split; [right; exact D1|exact D2]. }
    destruct X as (dt & D1 & D2). destruct (SV dt D1) as [S1 S2].
    apply (vpc_valid_on_terms prm g isol ds ks nz coeff scale dt x SU E1 E2 RO CO SO D1 S1 S2).
    rewrite D2, RT. apply setup_term_lp_keeps; [apply root_lp_keeps; assumption|exact XT].
Qed.
Print Assumptions produced_cut_valid.

(** The PRLP solution of [p_sol] is what the solver finds: a solution of the simplified program satisfies all
    collected constraints (the hypotheses are those of C09). *)
Lemma position_lt c l p : position c l = Some p -> (p < length l)%nat /\ nth p l O = c.
Proof.
  revert p. induction l as [|a r IH]; intros p H; [discriminate|]. cbn [position] in H.
  destruct (Nat.eqb_spec a c) as [->|N]; [inversion H; cbn; split; [lia|reflexivity]|].
  destruct (position c r) as [q|]; [|discriminate]. cbn in H. inversion H; subst p.
  destruct (IH q eq_refl) as [A B]. cbn [length nth]. split; [lia|exact B].
Qed.
Lemma position_none c l : position c l = None -> ~ In c l.
Proof.
  induction l as [|a r IH]; intros H; [intros []|]. cbn [position] in H.
  destruct (Nat.eqb_spec a c) as [->|N]; [discriminate|]. destruct (position c r); [discriminate|].
  intros [->|I]; [apply N; reflexivity|exact (IH eq_refl I)].
Qed.
Lemma Qsumf_single {A} (f : A -> Q) (l : list A) (a : A) : NoDup l -> In a l ->
  (forall b, In b l -> b <> a -> f b == 0) -> Qsumf f l == f a.
Proof.
  intros ND. induction ND as [|b l NI ND IH]; intros I Z; [destruct I|].
  change (Qsumf f (b :: l)) with (f b + Qsumf f l).
  destruct I as [->|I].
  - assert (E : Qsumf f l == 0).
    { clear IH ND. assert (G : forall c, In c l -> f c == 0).
      { intros c C. apply Z; [right; exact C|intros ->; exact (NI C)]. }
      clear -G. induction l as [|c l IH]; [reflexivity|]. change (Qsumf f (c :: l)) with (f c + Qsumf f l).
      rewrite (G c (or_introl eq_refl)), IH; [ring|]. intros d D. apply G. right. exact D. }
    rewrite E. ring.
  - rewrite IH; [|exact I|intros c C; apply Z; right; exact C].
    rewrite (Z b (or_introl eq_refl)); [ring|]. intros ->. exact (NI I).
Qed.
Lemma nbcoef_expand cols y c : cols <> [] -> NoDup cols -> nbcoef cols y c == expand cols y c.
Proof.
  intros NE ND. unfold nbcoef, expand. destruct cols as [|a r]; [congruence|].
  set (cols := a :: r) in *. destruct (position c cols) as [p|] eqn:E.
  - destruct (position_lt _ _ _ E) as [A B].
    rewrite (Qsumf_single _ (seq 0 (length cols)) p); [rewrite B, Nat.eqb_refl; reflexivity|apply seq_NoDup|apply in_seq; lia|].
    intros q I N. apply in_seq in I. destruct (Nat.eqb_spec (nth q cols O) c) as [Q|Q]; [|reflexivity].
    exfalso. apply N. apply (proj1 (NoDup_nth cols O) ND); [lia|lia|congruence].
  - apply position_none in E.
    assert (G : forall l, (forall q, In q l -> (q < length cols)%nat) ->
       Qsumf (fun t => if Nat.eqb (nth t cols O) c then y t else 0) l == 0).
    { induction l as [|q l IH]; intros L; [reflexivity|].
      match goal with |- Qsumf ?f _ == 0 => change (Qsumf f (q :: l)) with (f q + Qsumf f l) end.
      rewrite IH by (intros; apply L; right; assumption). cbv beta.
      destruct (Nat.eqb_spec (nth q cols O) c) as [Q|Q]; [|ring].
      exfalso. apply E. rewrite <- Q. apply nth_In, L. left. reflexivity. }
    apply G. intros q I. apply in_seq in I. lia.
Qed.
Lemma pdot_as_sum (v : packed) (f : nat -> Q) n : (forall e, In e v -> (fst e < n)%nat) ->
  pdot v f == Qsumf (fun c => f c * pval v c) (seq 0 n).
Proof.
  induction v as [|[i q] v IH]; intros B.
  - rewrite pdot_nil. induction (seq 0 n) as [|c l IH]; [reflexivity|].
    match goal with |- _ == Qsumf ?f _ => change (Qsumf f (c :: l)) with (f c + Qsumf f l) end.
    rewrite <- IH. unfold pval, Qsumf. cbn. ring.
  - rewrite pdot_cons, IH by (intros e E; apply B; right; exact E). cbn [fst snd].
    assert (I : (i < n)%nat) by (apply (B (i, q)); left; reflexivity).
    transitivity (Qsumf (fun c => (if Nat.eqb i c then q * f c else 0) + f c * pval v c) (seq 0 n)).
    + assert (A : forall l, Qsumf (fun c => (if Nat.eqb i c then q * f c else 0) + f c * pval v c) l ==
               Qsumf (fun c => if Nat.eqb i c then q * f c else 0) l + Qsumf (fun c => f c * pval v c) l).
      { induction l as [|c l IHl]; [reflexivity|].
        match goal with |- Qsumf ?f1 _ == Qsumf ?f2 _ + Qsumf ?f3 _ =>
          change (Qsumf f1 (c :: l)) with (f1 c + Qsumf f1 l); change (Qsumf f2 (c :: l)) with (f2 c + Qsumf f2 l);
          change (Qsumf f3 (c :: l)) with (f3 c + Qsumf f3 l) end.
        rewrite IHl. ring. }
      rewrite A. rewrite (Qsumf_single (fun c => if Nat.eqb i c then q * f c else 0) (seq 0 n) i).
      * rewrite Nat.eqb_refl. reflexivity.
      * apply seq_NoDup.
      * apply in_seq. lia.
      * intros b _ N. destruct (Nat.eqb_spec i b); [congruence|reflexivity].
    + apply Qsumf_ext. intros c _. rewrite pval_cons. cbn [fst snd].
      destruct (Nat.eqb_spec i c) as [->|N]; ring.
Qed.

Theorem loaded_solution_ok :
  forall scale INF DIFFEPS n ks ordP ordR l y,
  0 < scale -> 0 < DIFFEPS <= 1 ->
  (forall k, In k ks -> wf_constr scale DIFFEPS n k) ->
  Permutation ordP (filter (is_point_row scale) ks) -> Permutation ordR (filter (is_ray_row scale) ks) ->
  (forall k1 k2, In k1 ks -> In k2 ks -> ~ pr_rhs k1 == 0 -> ~ pr_rhs k2 == 0 -> ~ strictly_stronger DIFFEPS k1 k2) ->
  (forall k1 k2, In k1 ks -> In k2 ks -> nearly_implied DIFFEPS k1 k2 -> forall x, satisfies scale k2 x -> satisfies scale k1 x) ->
  prlp_setup scale INF DIFFEPS n ks ordP ordR = Some l -> l_cols l <> [] -> lp_feasible l y ->
  prlp_feasible n scale ks (nbcoef (l_cols l) y).
Proof.
  intros scale INF DIFFEPS n ks ordP ordR l y SC DE WF PP PR NS NI SU NE LF k K.
  destruct (setup_equivalent scale INF DIFFEPS n ks ordP ordR l SC DE WF PP PR NS NI SU) as [A _].
  specialize (A y LF k K). unfold satisfies in A.
  assert (ND : NoDup (l_cols l)).
  { unfold prlp_setup in SU. destruct (first_pass _ _ _) as [b|]; [|discriminate]. inversion SU; subst l. cbn [l_cols]. apply kept_nodup. }
  rewrite (pdot_as_sum _ _ n) in A by (intros e E; apply (WF k K); exact E).
  rewrite (Qsumf_ext _ (fun c => nbcoef (l_cols l) y c * pval (pr_vec k) c)) in A; [exact A|].
  intros c _. rewrite (nbcoef_expand _ _ _ NE ND). reflexivity.
Qed.
Print Assumptions loaded_solution_ok.

(** ** Split disjunctions *)
(** [d] is a successfully prepared split disjunction of [P]. *)
Definition split_of (P : lp) (isint : nat -> bool) (d : disj) : Prop :=
  exists AWAY x ans order d0, 0 < AWAY /\ answers_sound P x ans /\ fresh_disj d0 /\
  (forall c, In c order -> (c < ncols P)%nat) /\ (forall v, d_var d0 = Some v -> (v < ncols P)%nat) /\
  split_prepare AWAY isint x ans order d0 = Some (DSuccess, d).

(** A cut holding the one-sided row [r] (CglVPC.cpp:881-916). *)
Definition cut_of_row (r : row) (c : cut) : Prop := crow c = rcoef r /\ rlo r = Some (crhs c).

(** Everything returned by a call that works on split disjunctions is valid for every integer-feasible point,
    if the cuts handed to the call are. *)
Theorem split_call_valid P isint E v given o v' cuts (dj : nat -> disj) :
  generateCuts E v given o = Some (v', cuts) ->
  (forall j, split_of P isint (dj j)) ->
  ca_disj o <> D_OPTIMAL_SOLUTION_FOUND ->
  (forall c, In c (ca_root o) -> exists j r, In r (one_sided_cuts (dj j)) /\ cut_of_row r c) ->
  (forall j a, In a (dr_target (ca_run o j)) -> a_optimal a = true -> a_clean a = CleanOK ->
     inhabited (production P (dj j) (a_cut a))) ->
  (forall c x, In c given -> feasible P x -> integral isint (ncols P) x -> satisfies_cut (ec c) x) ->
  forall c x, In c cuts -> feasible P x -> integral isint (ncols P) x -> satisfies_cut (ec c) x.
Proof.
  intros H S NO RC AT GV c x C F I.
  assert (CV : forall j, in_disj (dj j) x).
  { intro j. destruct (S j) as (AWAY & x0 & ans & order & d0 & A1 & A2 & A3 & A4 & A5 & A6).
    destruct (split_covers AWAY P isint x0 ans order d0 (dj j) A1 A2 A3 A4 A5 A6) as (col & t1 & t2 & B).
    apply B; assumption. }
  apply (returned_cuts_inherit (fun k => satisfies_cut k x) E v given o v' cuts H); [| | | |exact C].
  - intros k K. apply (GV k x K F I).
  - intros k K. destruct (RC k K) as (j & r & R & [C1 C2]). unfold one_sided_cuts in R. unfold satisfies_cut. rewrite C1.
    assert (SR : sat_row r x).
    { destruct (CV j) as [[S1 S2] _]. apply in_app_or in R. destruct R as [R|R]; [|apply S2, R].
      apply in_map_iff in R. destruct R as (b & <- & R). apply change_row_sat, S1, R. }
    destruct SR as [SR _]. rewrite C2 in SR. exact SR.
  - intro K. contradiction.
  - intros j a A A1 A2. destruct (AT j a A A1 A2) as [p]. apply (produced_cut_valid P (dj j) _ p x F (CV j)).
Qed.
Print Assumptions split_call_valid.

(** ** The partial branch-and-bound tree *)
(** Everything returned by a call that works on a partial tree is valid for every integer-feasible point that
    Cbc has not given up while the tree was built. *)
Theorem tree_call_valid P E v given o v' cuts cfg ints lo0 up0 root h st a st' :
  generateCuts E v given o = Some (v', cuts) ->
  c_n cfg = ncols P -> TreeSpec.root_ok (c_n cfg) ints root -> (0 < c_max cfg)%Z ->
  history cfg (lawful cfg ints) (h_init lo0 up0 root disj_new) h st -> lawful cfg ints st a -> step cfg st a = EvStop st' ->
  ca_disj o <> D_OPTIMAL_SOLUTION_FOUND ->
  (forall c, In c (ca_root o) -> exists r, In r (one_sided_cuts (h_disj st')) /\ cut_of_row r c) ->
  (forall j b, In b (dr_target (ca_run o j)) -> a_optimal b = true -> a_clean b = CleanOK ->
     inhabited (production P (h_disj st') (a_cut b))) ->
  forall x, feasible P x -> integral ints (ncols P) x -> TreeSpec.in_bounds (ncols P) (cn_lo root) (cn_hi root) x ->
  (forall s b, In (s, b) (h ++ [(st, a)]) -> ~ gives_up cfg s b x) ->
  (forall c, In c given -> satisfies_cut (ec c) x) ->
  forall c, In c cuts -> satisfies_cut (ec c) x.
Proof.
  intros H N RO MX HI L ST NO RC AT x F I XB G GV c C.
  assert (CV : in_disj (h_disj st') x).
  { apply (tree_covers cfg ints lo0 up0 root disj_new h st a st' RO MX HI L ST); rewrite ?N; assumption. }
  apply (returned_cuts_inherit (fun k => satisfies_cut k x) E v given o v' cuts H); [exact GV| | | |exact C].
  - intros k K. destruct (RC k K) as (r & R & [C1 C2]). unfold one_sided_cuts in R. unfold satisfies_cut. rewrite C1.
    assert (SR : sat_row r x).
    { destruct CV as [[S1 S2] _]. apply in_app_or in R. destruct R as [R|R]; [|apply S2, R].
      apply in_map_iff in R. destruct R as (b & <- & R). apply change_row_sat, S1, R. }
    destruct SR as [SR _]. rewrite C2 in SR. exact SR.
  - intro K. contradiction.
  - intros j b B B1 B2. destruct (AT j b B B1 B2) as [p]. apply (produced_cut_valid P _ _ p x F CV).
Qed.
Print Assumptions tree_call_valid.

(** ** A complete case: min x0 + 2 x1, 2x0+2x1 >= 5 on [0,4]x[0,3], LP optimum (5/2,0), split on x0. *)
Definition sT1 : termdata := {| td_obj := Some 3; td_changes := [{| bc_var := 0; bc_bound := 1; bc_val := 2 |}];
                                td_feasible := true; td_ineqs := [] |}.
Definition sT2 : termdata := {| td_obj := Some 3; td_changes := [{| bc_var := 0; bc_bound := 0; bc_val := 3 |}];
                                td_feasible := true; td_ineqs := [] |}.
Definition sD : disj :=
  {| d_terms := [sT1; sT2]; d_num_terms := 2; d_id := -1; d_best := None; d_worst := None; d_iobj := None;
     d_isol := None; d_common := []; d_common_ineqs := []; d_root := None; d_var := Some 0%nat |}.
Lemma sD_split : split_of vP (fun _ => true) sD.
Proof.
  exists (1#1000), (gsol vG), (fun _ _ => BOptimal 3), [0%nat], disj_new.
  split; [reflexivity|]. split; [intro col; split; discriminate|]. split; [repeat split|].
  split; [intros c [<-|[]]; cbn; lia|]. split; [discriminate|]. vm_compute. reflexivity.
Qed.
Definition sS1 : termsolver :=
  {| tlp := setup_term_lp vP sT1; tbas := tbas vT1; tsol := tsol vT1; tobj := 3; toptimal := true; tNB := tNB vT1;
     trowOf := trowOf vT1; tBInvA := tBInvA vT1; tscl := tscl vT1 |}.
Definition sS2 : termsolver :=
  {| tlp := setup_term_lp vP sT2; tbas := tbas (vT2 true); tsol := tsol (vT2 true); tobj := 3; toptimal := true;
     tNB := tNB (vT2 true); trowOf := trowOf (vT2 true); tBInvA := tBInvA (vT2 true); tscl := tscl (vT2 true) |}.
Definition sDs : list dterm :=
  [{| dt_feasible := true; dt_saved := Some 3; dt_solver := sS1; dt_timeup := false |};
   {| dt_feasible := true; dt_saved := Some 3; dt_solver := sS2; dt_timeup := false |}].
Lemma sS1_ok : term_contract vG sS1.
Proof.
  split; [|split; [|split; [|split; [|split]]]].
  - split; [reflexivity|]. split; [apply le_n|]. split; [reflexivity|].
    intros [|[|j]] Hj q; [| |exfalso; cbn in Hj; lia];
      cbn [vG glp sS1 tlp setup_term_lp sT1 td_ineqs td_changes fold_left set_bound bc_bound bc_var bc_val Z.leb Z.compare vP clo cup above below Nat.eqb]; split; intro; lra.
  - apply setup_term_lp_keeps; [apply vP_feasible; cbn; lra|]. split; [intros c [<-|[]]; vm_compute; discriminate|intros r []].
  - apply vT1_ok.
  - intros v [<-|[<-|[]]]; cbn; [reflexivity|]. split; [lia|]. split; [discriminate|reflexivity].
  - intros [|[|c]] Hc; [| |exfalso; cbn in Hc; lia]; cbn.
    + split; [intros [|[|[]]]; discriminate|]. intro x. unfold varval, pdot, Qsumf. cbn. ring.
    + right; left; reflexivity.
  - intro v. reflexivity.
Qed.
Lemma sS2_ok : term_contract vG sS2.
Proof.
  split; [|split; [|split; [|split; [|split]]]].
  - split; [reflexivity|]. split; [apply le_n|]. split; [reflexivity|].
    intros [|[|j]] Hj q; [| |exfalso; cbn in Hj; lia];
      cbn [vG glp sS2 tlp setup_term_lp sT2 td_ineqs td_changes fold_left set_bound bc_bound bc_var bc_val Z.leb Z.compare vP clo cup above below Nat.eqb]; split; intro; lra.
  - apply setup_term_lp_keeps; [apply vP_feasible; cbn; lra|]. split; [intros c [<-|[]]; vm_compute; discriminate|intros r []].
  - apply (vT2_ok true).
  - intros v [<-|[<-|[]]]; cbn; reflexivity.
  - intros [|[|c]] Hc; [| |exfalso; cbn in Hc; lia]; cbn.
    + right; left; reflexivity.
    + split; [intros [|[|[]]]; discriminate|]. intro x. unfold varval, pdot, Qsumf. cbn. ring.
  - intro v. reflexivity.
Qed.
Definition sCut : cut := removeSmallCoefficients (prlp_cut exPrm vG [] valpha 1 0) vP 0 (1#100000).
Lemma sCut_produced d : d_terms d = [sT1; sT2] -> d_common d = [] -> d_common_ineqs d = [] -> production vP d sCut.
Proof.
  intros E1 E2 E3.
  refine {| p_prm := exPrm; p_g := vG; p_ds := sDs; p_isol := None; p_nz := []; p_coeff := valpha; p_scale := 1;
            p_box := vP; p_epscoeff := 1#100000; p_setup := _ |}.
  - unfold root_lp. rewrite E2, E3. reflexivity.
  - rewrite E1. constructor; [reflexivity|]. constructor; [reflexivity|constructor].
  - intros dt [<-|[<-|[]]]; (split; [repeat split|]); [apply sS1_ok|apply sS2_ok].
  - vm_compute. reflexivity.
  - reflexivity.
  - reflexivity.
  - apply vG_ok.
  - split; [exact I|intros t []].
  - intros k Hk. cbn [In] in Hk. repeat destruct Hk as [<-|Hk]; try (vm_compute; discriminate). destruct Hk.
  - split; [reflexivity|]. intros x [B _] _. exact B.
  - reflexivity.
Defined.
(** A call in the mode of several splits that tries one objective and returns this cut: 2 x0 + 4 x1 >= 6,
    violated by the LP optimum (5/2, 0). *)
Definition sRun : disjrun :=
  {| dr_time0 := false; dr_setup_fails := []; dr_time1 := false; dr_best := 3; dr_worst := 3; dr_lpopt := 5#2;
     dr_prlp := SUCCESS_EXIT; dr_prlp_fails := []; dr_user := dr_user exrun; dr_target := [okat DISJ_LB sCut];
     dr_time2 := false; dr_solvetime2 := 0 |}.
Definition sOracle : callans :=
  {| ca_time0 := false; ca_nfrac := 1; ca_nfrac_default := 1; ca_optimal := true; ca_disj := D_SUCCESS;
     ca_objcut := mkc [] 0; ca_objcut_disj := 0; ca_root := []; ca_root_ok := true;
     ca_root_fails := []; ca_setsize := 1; ca_run := fun _ => sRun |}.
Definition sV : vpc :=
  {| v_g := exg; v_pmode := SPLITS; v_terms := 1; v_flip := -1; v_tikz := false; v_prlptime := 5;
     v_disj := false; v_set := false; v_user := []; v_exit := UNKNOWN_EXIT |}.
Example split_call_example :
  exists v' c, generateCuts exE sV [] sOracle = Some (v', [c]) /\ ec c = sCut /\
  crhs sCut == 6 /\ pval (crow sCut) 0 == 2 /\ pval (crow sCut) 1 == 4 /\ ~ satisfies_cut sCut (gsol vG) /\
  forall x, feasible vP x -> integral (fun _ => true) 2 x -> satisfies_cut (ec c) x.
Proof.
  assert (H : exists v' c, generateCuts exE sV [] sOracle = Some (v', [c]) /\ ec c = sCut).
  { eexists. eexists. split; [vm_compute; reflexivity|vm_compute; reflexivity]. }
  destruct H as (v' & c & H & EC). exists v', c. split; [exact H|]. split; [exact EC|].
  split; [vm_compute; reflexivity|]. split; [vm_compute; reflexivity|]. split; [vm_compute; reflexivity|].
  split; [vm_compute; intro K; apply K; reflexivity|].
  intros x F I.
  apply (split_call_valid vP (fun _ => true) exE sV [] sOracle v' [c] (fun _ => sD) H); try assumption.
  - intros _. exact sD_split.
  - discriminate.
  - intros k [].
  - intros j a [<-|[]] _ _. constructor. apply sCut_produced; reflexivity.
  - intros k y [].
  - left. reflexivity.
Qed.

(** The same cut from a partial tree of two leaves: the root node is branched on x0. *)
Definition tRoot : cnode :=
  {| cn_num := 0; cn_left := 2; cn_var := 0; cn_value := 5#2; cn_up := false; cn_dcode := 0;
     cn_lo := clo vP; cn_hi := cup vP; cn_obj := 5#2; cn_parent := None |}.
Definition tCfg : hcfg := {| c_n := 2; c_max := 2; c_keep := false; c_nochoose := true |}.
Definition tSt := h_init (clo vP) (cup vP) tRoot disj_new.
Definition tAct : action := ATree [tRoot] false (fun _ => true) (fun _ _ => Some 3) (clo vP) (cup vP).
Definition tSt' : hst := go (step tCfg tSt tAct).
Definition tOracle : callans :=
  {| ca_time0 := false; ca_nfrac := 1; ca_nfrac_default := 1; ca_optimal := true; ca_disj := D_SUCCESS;
     ca_objcut := mkc [] 0; ca_objcut_disj := 0; ca_root := []; ca_root_ok := true;
     ca_root_fails := []; ca_setsize := 0; ca_run := fun _ => sRun |}.
Example tree_call_example :
  step tCfg tSt tAct = EvStop tSt' /\ d_terms (h_disj tSt') = [sT1; sT2] /\
  exists v' c, generateCuts exE exv [] tOracle = Some (v', [c]) /\ ec c = sCut /\
  forall x, feasible vP x -> integral (fun _ => true) 2 x -> satisfies_cut (ec c) x.
Proof.
  assert (ST : step tCfg tSt tAct = EvStop tSt') by (vm_compute; reflexivity).
  assert (DT : d_terms (h_disj tSt') = [sT1; sT2]) by (vm_compute; reflexivity).
  split; [exact ST|]. split; [exact DT|].
  assert (H : exists v' c, generateCuts exE exv [] tOracle = Some (v', [c]) /\ ec c = sCut).
  { eexists. eexists. split; [vm_compute; reflexivity|vm_compute; reflexivity]. }
  destruct H as (v' & c & H & EC). exists v', c. split; [exact H|]. split; [exact EC|].
  intros x F I.
  apply (tree_call_valid vP exE exv [] tOracle v' [c] tCfg (fun _ => true) (clo vP) (cup vP) tRoot [] tSt tAct tSt' H eq_refl); try assumption.
  - split; [reflexivity|]. split; [reflexivity|]. split; [reflexivity|]. split; [cbn; lia|]. split; [reflexivity|].
    split; [vm_compute; discriminate|left; reflexivity].
  - reflexivity.
  - constructor.
  - split; [apply Permutation_refl|]. left. left. reflexivity.
  - discriminate.
  - intros k [].
  - intros j b [<-|[]] _ _. constructor. apply sCut_produced; [exact DT|vm_compute; reflexivity|vm_compute; reflexivity].
  - destruct F as [B _]. exact B.
  - intros s b [K|[]] G. inversion K; subst s b. destruct G as (_ & i & cs & G & _). discriminate.
  - intros k [].
  - left. reflexivity.
Qed.
