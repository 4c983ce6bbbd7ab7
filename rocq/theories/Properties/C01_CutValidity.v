(** C01: every V-polyhedral cut is satisfied by every integer-feasible point covered by the
    disjunctive terms it was computed from. *)
From Verif Require Import Prelude Model.Tolerance Model.LP Model.BasisStatus Model.NBSpace
  Model.PRCollection Model.Setup Spec.LPSpec Spec.NBSpec Spec.TermSpec Spec.CutSpec
  Proofs.ToleranceP Proofs.NBPointP Proofs.PRCollectionP Proofs.CutValidP Properties.C04_TermRelaxed.

(** Root data well formed: rows mention existing columns, the cobasis lists [ncols] variables in
    increasing order, each at a supported bound. *)
Definition root_ok (g : rootdata) : Prop :=
  wf_lp (glp g) /\ length (gNB g) = ncols (glp g) /\ increasing_from 0 (gNB g) /\ root_contract g.

(** The PRLP columns that were kept ([nz], empty = all). *)
Definition columns_ok (g : rootdata) (nz : list nat) : Prop :=
  increasing_from 0 nz /\ (forall t, In t nz -> (t < ncols (glp g))%nat).

(** A term that setupConstraints actually turns into constraints. *)
Definition processed (d : dterm) : Prop :=
  dt_feasible d = true /\ toptimal (dt_solver d) = true /\ dt_timeup d = false.

(** Quantitative validity with the tolerances of the code: a point [x] of a processed term violates
    the structural cut by at most the stated amount. *)
Theorem vpc_valid_tolerance :
  forall prm g isol ds ks nz coeff scale EPS d x,
  setupConstraints prm g isol ds = Some ks ->
  0 <= pEPS prm -> 0 <= pRAYEPS prm -> 0 <= EPS ->
  root_ok g -> columns_ok g nz ->
  prlp_feasible (ncols (glp g)) scale ks (nbcoef nz coeff) ->
  In d ds -> processed d -> term_contract g (dt_solver d) -> feasible (tlp (dt_solver d)) x ->
  let c := prlp_cut prm g nz coeff scale EPS in
  let t := dt_solver d in
  crhs c - (pEPS prm + pRAYEPS prm *
              Qsumf (fun j => Qabs (varval (tlp t) j x - varval (tlp t) j (tsol t))) (tNB t))
           * Qsumf (fun i => Qabs (nbcoef nz coeff i)) (seq 0 (ncols (glp g)))
         - EPS * Qsumf (fun j => Qabs (x j)) (seq 0 (ncols (glp g)))
  <= pdot (crow c) x.
Proof.
  intros prm g isol ds ks nz coeff scale EPS d x Hs HE HR He (Hwf & HL & Hinc & Hroot) (Hn1 & Hn2) Hf Hin (P1 & P2 & P3)
    (C1 & C2 & C3 & C4 & C5 & C6) Hx c t.
  unfold setupConstraints in Hs. destruct (setup_integer_sol prm g isol) as [a|]; [|discriminate].
  destruct (setup_terms prm g _ ds) as [b|] eqn:E; [|discriminate]. inversion Hs; subst ks.
  destruct (setup_terms_in prm g ds _ b d E Hin P1 P2 P3) as (tj & prs & G1 & G2).
  assert (Hf' : prlp_feasible (ncols (glp g)) scale prs (nbcoef nz coeff)).
  { intros k Hk. apply Hf. apply in_app_iff. right. apply G2, Hk. }
  pose proof (term_point_bound prm g t tj prs x (nbcoef nz coeff) scale G1 C6 HE HR C1 C3 C4 C5 Hroot C2 Hx Hf') as B.
  pose proof (prlp_cut_value prm g nz coeff scale EPS x Hwf He HL Hinc Hn1 Hn2 Hroot) as V.
  cbv zeta in V. fold c in V. apply Qabs_Qle_condition in V.
  assert (Hb : cut_beta prm scale == prlp_beta prm * scale).
  { unfold cut_beta, prlp_beta. destruct (0 <=? pFLIP prm)%Z; ring. }
  rewrite Hb in V. lra.
Qed.
Print Assumptions vpc_valid_tolerance.

(** Exact validity (tolerances 0) on every processed term. *)
Theorem vpc_valid_on_terms :
  forall prm g isol ds ks nz coeff scale d x,
  setupConstraints prm g isol ds = Some ks ->
  pEPS prm = 0 -> pRAYEPS prm = 0 ->
  root_ok g -> columns_ok g nz ->
  prlp_feasible (ncols (glp g)) scale ks (nbcoef nz coeff) ->
  In d ds -> processed d -> term_contract g (dt_solver d) -> feasible (tlp (dt_solver d)) x ->
  satisfies_cut (prlp_cut prm g nz coeff scale 0) x.
Proof.
  intros prm g isol ds ks nz coeff scale d x Hs HE HR Hg Hn Hf Hin Hp Hc Hx.
  pose proof (vpc_valid_tolerance prm g isol ds ks nz coeff scale 0 d x Hs) as V.
  cbv zeta in V. rewrite HE, HR in V.
  specialize (V (Qle_refl 0) (Qle_refl 0) (Qle_refl 0) Hg Hn Hf Hin Hp Hc Hx).
  unfold satisfies_cut. eapply Qle_trans; [|exact V].
  match goal with |- ?a <= ?a - (0 + 0 * ?b) * ?c - 0 * ?d => setoid_replace (a - (0 + 0 * b) * c - 0 * d) with a by ring end.
  apply Qle_refl.
Qed.
Print Assumptions vpc_valid_on_terms.

(** The cut is valid for the integer program whenever the processed terms cover its points. *)
Theorem vpc_valid_for_integer_points :
  forall prm g isol ds ks nz coeff scale ints,
  setupConstraints prm g isol ds = Some ks ->
  pEPS prm = 0 -> pRAYEPS prm = 0 ->
  root_ok g -> columns_ok g nz ->
  (forall d, In d ds -> processed d -> term_contract g (dt_solver d)) ->
  (* the disjunction covers the integer points *)
  (forall x, feasible (glp g) x -> integral ints (ncols (glp g)) x ->
     exists d, In d ds /\ processed d /\ feasible (tlp (dt_solver d)) x) ->
  prlp_feasible (ncols (glp g)) scale ks (nbcoef nz coeff) ->
  forall x, feasible (glp g) x -> integral ints (ncols (glp g)) x ->
  satisfies_cut (prlp_cut prm g nz coeff scale 0) x.
Proof.
  intros prm g isol ds ks nz coeff scale ints Hs HE HR Hg Hn Hc Hcov Hf x Hx Hi.
  destruct (Hcov x Hx Hi) as (d & Hin & Hp & Hd).
  eapply vpc_valid_on_terms; try eassumption. apply Hc; assumption.
Qed.
Print Assumptions vpc_valid_for_integer_points.

(** The integer solution found while building the tree satisfies the cut. *)
Theorem vpc_valid_at_integer_solution :
  forall prm g s ds ks nz coeff scale,
  setupConstraints prm g (Some s) ds = Some ks ->
  pEPS prm = 0 -> 0 <= scale -> root_ok g -> columns_ok g nz -> feasible (glp g) s ->
  prlp_feasible (ncols (glp g)) scale ks (nbcoef nz coeff) ->
  satisfies_cut (prlp_cut prm g nz coeff scale 0) s.
Proof.
  intros prm g s ds ks nz coeff scale Hs HE Hsc (Hwf & HL & Hinc & Hroot) (Hn1 & Hn2) Hx Hf.
  unfold setupConstraints in Hs. cbn [setup_integer_sol] in Hs.
  destruct (setCompNBCoor _ _ _ _ _ _ _) as [vec|] eqn:EV; [|discriminate].
  destruct (setup_terms prm g _ ds) as [b|]; [|discriminate]. inversion Hs; subst ks.
  pose proof (Hf _ (or_introl eq_refl)) as B. cbn [pr_rhs pr_vec] in B.
  pose proof (prlp_cut_value prm g nz coeff scale 0 s Hwf (Qle_refl 0) HL Hinc Hn1 Hn2 Hroot) as V.
  cbv zeta in V. apply Qabs_Qle_condition in V. rewrite Qmult_0_l in V.
  rewrite (Qsumf_ext (fun c => nbcoef nz coeff c * pval vec c)
             (fun i => nbcoef nz coeff i * dist (glp g) (gbas g) (nth i (gNB g) O) s)) in B.
  2:{ intros c Hc. apply in_seq in Hc. destruct (Hroot c) as [R1 R2]; [lia|].
      destruct (setCompNBCoor_faithful _ _ _ _ _ _ _ _ EV) as (_ & _ & F).
      pose proof (F c _ (point_entries_in (glp g) (gsol g) s _ (gNB g) c ltac:(lia))) as P.
      rewrite (point_coord_dist _ _ _ _ _ R1 R2 Hx) in P.
      destruct P as [P|[_ P]]; [rewrite P; reflexivity|].
      rewrite HE in P. exfalso.
      match type of P with Qabs ?q < 0 => pose proof (Qabs_nonneg q) end. lra. }
  assert (Hb : cut_beta prm scale <= 1 * scale).
  { unfold cut_beta. destruct (0 <=? pFLIP prm)%Z; lra. }
  unfold satisfies_cut. lra.
Qed.
Print Assumptions vpc_valid_at_integer_solution.

(** ** Concrete case: min x0 + 2 x1, 2x0+2x1 >= 5 on [0,4]x[0,3]; LP optimum (5/2,0);
    split x0 <= 2 or x0 >= 3; PRLP solution (2,1), cut 2x0+4x1 >= 6. *)
Definition vP : lp :=
  {| ncols := 2; nrows := 1; clo := fun _ => Some 0; cup := fun j => if Nat.eqb j 0 then Some 4 else Some 3;
     rows := fun _ => {| rcoef := [(0%nat,2);(1%nat,2)]; rlo := Some 5; rup := None |};
     obj := fun j => if Nat.eqb j 0 then 1 else 2 |}.
Definition vG : rootdata :=
  {| glp := vP;
     gbas := {| colStatus := fun j => if Nat.eqb j 0 then basic else atLowerBound; rowStatus := fun _ => atLowerBound;
                reducedCost := fun j => if Nat.eqb j 0 then 0 else 1; rowPrice := fun _ => 1#2 |};
     gsol := fun j => if Nat.eqb j 0 then 5#2 else 0; gobj := 5#2; glp_opt := 5#2;
     gNB := [1;2]%nat; gredcost := fun c => if Nat.eqb c 0 then 1 else 1#2 |}.
Definition vT1 : termsolver :=
  {| tlp := {| ncols := 2; nrows := 1; clo := clo vP; cup := fun j => if Nat.eqb j 0 then Some 2 else Some 3;
               rows := rows vP; obj := obj vP |};
     tbas := {| colStatus := fun j => if Nat.eqb j 0 then atUpperBound else basic; rowStatus := fun _ => atLowerBound;
                reducedCost := fun j => if Nat.eqb j 0 then -(1) else 0; rowPrice := fun _ => 1 |};
     tsol := fun j => if Nat.eqb j 0 then 2 else 1#2; tobj := 3; toptimal := true; tNB := [0;2]%nat;
     trowOf := fun c => if Nat.eqb c 0 then Some 0%nat else None;
     tBInvA := fun j _ => if Nat.eqb j 0 then 1 else 1#2; tscl := fun _ => 1 |}.
Definition vT2 (opt : bool) : termsolver :=
  {| tlp := {| ncols := 2; nrows := 1; clo := fun j => if Nat.eqb j 0 then Some 3 else Some 0; cup := cup vP;
               rows := rows vP; obj := obj vP |};
     tbas := {| colStatus := fun _ => atLowerBound; rowStatus := fun _ => basic;
                reducedCost := fun j => if Nat.eqb j 0 then 1 else 2; rowPrice := fun _ => 0 |};
     tsol := fun j => if Nat.eqb j 0 then 3 else 0; tobj := 3; toptimal := opt; tNB := [0;1]%nat;
     trowOf := fun c => if Nat.eqb c 0 then None else Some 0%nat;
     tBInvA := fun _ _ => 2; tscl := fun _ => 1 |}.
Definition vDs (opt : bool) : list dterm :=
  [{| dt_feasible := true; dt_saved := Some 3; dt_solver := vT1; dt_timeup := false |};
   {| dt_feasible := true; dt_saved := Some 3; dt_solver := vT2 opt; dt_timeup := false |}].

Lemma vP_feasible x : feasible vP x <->
  (0 <= x 0%nat <= 4) /\ (0 <= x 1%nat <= 3) /\ 5 <= 2 * x 0%nat + 2 * x 1%nat.
Proof.
  split.
  - intros [B R]. pose proof (B 0%nat ltac:(cbn; lia)) as B0. pose proof (B 1%nat ltac:(cbn; lia)) as B1.
    pose proof (R 0%nat ltac:(cbn; lia)) as R0. unfold pdot, Qsumf in R0.
    cbn [vP clo cup rows rcoef rlo rup above below Nat.eqb map Qsum fst snd] in *. lra.
  - intros (H0 & H1 & H2). split.
    + intros [|[|j]] Hj; [| |exfalso; cbn in Hj; lia]; cbn [vP clo cup above below Nat.eqb]; lra.
    + intros [|i] Hi; [|exfalso; cbn in Hi; lia]. unfold pdot, Qsumf.
      cbn [vP rows rcoef rlo rup above below map Qsum fst snd]. split; [lra|trivial].
Qed.
Lemma vT1_feasible x : (0 <= x 0%nat <= 2) -> (0 <= x 1%nat <= 3) -> 5 <= 2 * x 0%nat + 2 * x 1%nat ->
  feasible (tlp vT1) x.
Proof.
  intros H0 H1 H2. split.
  - intros [|[|j]] Hj; [| |exfalso; cbn in Hj; lia]; cbn [vT1 tlp vP clo cup above below Nat.eqb]; lra.
  - intros [|i] Hi; [|exfalso; cbn in Hi; lia]. unfold pdot, Qsumf.
    cbn [vT1 tlp vP rows rcoef rlo rup above below map Qsum fst snd]. split; [lra|trivial].
Qed.
Lemma vT2_feasible b x : (3 <= x 0%nat <= 4) -> (0 <= x 1%nat <= 3) -> 5 <= 2 * x 0%nat + 2 * x 1%nat ->
  feasible (tlp (vT2 b)) x.
Proof.
  intros H0 H1 H2. split.
  - intros [|[|j]] Hj; [| |exfalso; cbn in Hj; lia]; cbn [vT2 tlp vP clo cup above below Nat.eqb]; lra.
  - intros [|i] Hi; [|exfalso; cbn in Hi; lia]. unfold pdot, Qsumf.
    cbn [vT2 tlp vP rows rcoef rlo rup above below map Qsum fst snd]. split; [lra|trivial].
Qed.
Lemma vG_ok : root_ok vG.
Proof.
  split; [|split; [|split]].
  - intros [|i] Hi e He; [|exfalso; cbn in Hi; lia]. cbn in He. intuition (subst; cbn; lia).
  - reflexivity.
  - cbn. lia.
  - intros [|[|c]] Hc; [| |exfalso; cbn in Hc; lia]; (split; [cbn; lia|]); cbn; repeat split; reflexivity.
Qed.
Lemma vT1_ok : term_contract vG vT1.
Proof.
  split; [|split; [|split; [|split; [|split]]]].
  - split; [reflexivity|]. split; [apply le_n|]. split; [reflexivity|].
    intros [|[|j]] Hj q; [| |exfalso; cbn in Hj; lia];
      cbn [vG glp vT1 tlp vP clo cup above below Nat.eqb]; split; intro; lra.
  - apply vT1_feasible; try split; vm_compute; discriminate.
  - constructor; [cbn; intros [|[]]; discriminate|constructor; [intros []|constructor]].
  - intros v [<-|[<-|[]]]; cbn; [reflexivity|]. split; [lia|]. split; [discriminate|reflexivity].
  - intros [|[|c]] Hc; [| |exfalso; cbn in Hc; lia]; cbn.
    + split; [intros [|[|[]]]; discriminate|]. intro x. unfold varval, pdot, Qsumf. cbn. ring.
    + right; left; reflexivity.
  - intro v. reflexivity.
Qed.
Lemma vT2_ok b : term_contract vG (vT2 b).
Proof.
  split; [|split; [|split; [|split; [|split]]]].
  - split; [reflexivity|]. split; [apply le_n|]. split; [reflexivity|].
    intros [|[|j]] Hj q; [| |exfalso; cbn in Hj; lia];
      cbn [vG glp vT2 tlp vP clo cup above below Nat.eqb]; split; intro; lra.
  - apply vT2_feasible; try split; vm_compute; discriminate.
  - constructor; [cbn; intros [|[]]; discriminate|constructor; [intros []|constructor]].
  - intros v [<-|[<-|[]]]; cbn; reflexivity.
  - intros [|[|c]] Hc; [| |exfalso; cbn in Hc; lia]; cbn.
    + right; left; reflexivity.
    + split; [intros [|[|[]]]; discriminate|]. intro x. unfold varval, pdot, Qsumf. cbn. ring.
  - intro v. reflexivity.
Qed.
Definition valpha : nat -> Q := fun c => if Nat.eqb c 0 then 2 else 1.

Example vpc_example :
  exists ks, setupConstraints exPrm vG None (vDs true) = Some ks /\ length ks = 6%nat /\
  root_ok vG /\ columns_ok vG [] /\
  (forall d, In d (vDs true) -> processed d /\ term_contract vG (dt_solver d)) /\
  (forall x, feasible (glp vG) x -> integral (fun _ => true) (ncols (glp vG)) x ->
     exists d, In d (vDs true) /\ processed d /\ feasible (tlp (dt_solver d)) x) /\
  prlp_feasible (ncols (glp vG)) (prlp_scale 3 (5#2)) ks (nbcoef [] valpha) /\
  let c := prlp_cut exPrm vG [] valpha (prlp_scale 3 (5#2)) 0 in
  crhs c == 6 /\ pval (crow c) 0 == 2 /\ pval (crow c) 1 == 4 /\ ~ satisfies_cut c (gsol vG).
Proof.
  eexists. split; [vm_compute; reflexivity|]. split; [reflexivity|].
  split; [apply vG_ok|]. split; [split; [exact I|intros t []]|].
  split. { intros d [<-|[<-|[]]]; (split; [repeat split|]); [apply vT1_ok|apply vT2_ok]. }
  split.
  { intros x Hx Hi. apply vP_feasible in Hx. destruct Hx as (H0 & H1 & H2).
    destruct (Hi 0%nat ltac:(cbn; lia) eq_refl) as [z Hz].
    destruct (Z_le_gt_dec z 2) as [L|L].
    - eexists. split; [left; reflexivity|]. split; [repeat split|]. apply vT1_feasible; try assumption.
      rewrite Zle_Qle in L. rewrite Hz in *. change (inject_Z 2) with 2 in L. lra.
    - eexists. split; [right; left; reflexivity|]. split; [repeat split|]. apply vT2_feasible; try assumption.
      assert (L' : (3 <= z)%Z) by lia. rewrite Zle_Qle in L'. rewrite Hz in *.
      change (inject_Z 3) with 3 in L'. lra. }
  split. { intros k Hk. cbn [In] in Hk. repeat destruct Hk as [<-|Hk]; try (vm_compute; discriminate). destruct Hk. }
  cbn zeta. split; [vm_compute; reflexivity|]. split; [vm_compute; reflexivity|]. split; [vm_compute; reflexivity|].
  vm_compute. intro H. apply H. reflexivity.
Qed.

(** REFUTED when a feasible term's LP is not solved to proven optimality: the term is silently
    dropped and the cut can remove an integer-feasible point of that term. *)
Theorem vpc_unsolved_term_refuted :
  exists prm g ds ks coeff d x,
  setupConstraints prm g None ds = Some ks /\ pEPS prm = 0 /\ pRAYEPS prm = 0 /\
  root_ok g /\ columns_ok g [] /\
  prlp_feasible (ncols (glp g)) 1 ks (nbcoef [] coeff) /\
  In d ds /\ dt_feasible d = true /\ toptimal (dt_solver d) = false /\
  term_contract g (dt_solver d) /\ feasible (tlp (dt_solver d)) x /\
  integral (fun _ => true) (ncols (glp g)) x /\
  ~ satisfies_cut (prlp_cut prm g [] coeff 1 0) x.
Proof.
  exists exPrm, vG, (vDs false). eexists. exists (fun c => if Nat.eqb c 0 then 2 else 0).
  exists {| dt_feasible := true; dt_saved := Some 3; dt_solver := vT2 false; dt_timeup := false |},
    (fun j => if Nat.eqb j 0 then 3 else 0).
  split; [vm_compute; reflexivity|]. split; [reflexivity|]. split; [reflexivity|].
  split; [apply vG_ok|]. split; [split; [exact I|intros t []]|].
  split. { intros k Hk. cbn [In] in Hk. repeat destruct Hk as [<-|Hk]; try (vm_compute; discriminate). destruct Hk. }
  split; [right; left; reflexivity|]. split; [reflexivity|]. split; [reflexivity|].
  split; [apply vT2_ok|]. split; [apply vT2_feasible; try split; vm_compute; discriminate|].
  split. { intros [|[|j]] Hj _; [exists 3%Z|exists 0%Z|exfalso; cbn in Hj; lia]; reflexivity. }
  vm_compute. intro H. apply H. reflexivity.
Qed.
Print Assumptions vpc_unsolved_term_refuted.

(** REFUTED for the leaf replaced by an integer solution: the leaf is represented by one point (its
    LP optimum [s]), so the cut can remove another integer-feasible point of the same leaf.
    Here the problem is [0,5]^2 with objective x0+x1; leaf x0 >= 1 has LP optimum (1,0). *)
Definition iG : rootdata :=
  {| glp := {| ncols := 2; nrows := 0; clo := fun _ => Some 0; cup := fun _ => Some 5;
               rows := fun _ => {| rcoef := []; rlo := None; rup := None |}; obj := fun _ => 1 |};
     gbas := {| colStatus := fun _ => atLowerBound; rowStatus := fun _ => basic; reducedCost := fun _ => 1; rowPrice := fun _ => 0 |};
     gsol := fun _ => 0; gobj := 0; glp_opt := 0; gNB := [0;1]%nat; gredcost := fun _ => 1 |}.
Theorem vpc_integer_leaf_refuted :
  exists prm g s ks coeff x,
  setupConstraints prm g (Some s) [] = Some ks /\ pEPS prm = 0 /\ pRAYEPS prm = 0 /\
  root_ok g /\ columns_ok g [] /\ prlp_feasible (ncols (glp g)) 1 ks (nbcoef [] coeff) /\
  feasible (glp g) s /\ feasible (glp g) x /\
  integral (fun _ => true) (ncols (glp g)) s /\ integral (fun _ => true) (ncols (glp g)) x /\
  (* s minimises the objective over the leaf x0 >= 1, and x lies in that leaf *)
  s 0%nat == 1 /\ 1 <= x 0%nat /\
  (forall y, feasible (glp g) y -> 1 <= y 0%nat -> s 0%nat + s 1%nat <= y 0%nat + y 1%nat) /\
  ~ satisfies_cut (prlp_cut prm g [] coeff 1 0) x.
Proof.
  exists exPrm, iG, (fun j => if Nat.eqb j 0 then 1 else 0). eexists.
  exists (fun c => if Nat.eqb c 0 then 1 else -(1)), (fun _ => 1).
  split; [vm_compute; reflexivity|]. split; [reflexivity|]. split; [reflexivity|].
  split. { split; [|split; [|split]].
    - intros i Hi. cbn in Hi. lia.
    - reflexivity.
    - cbn. lia.
    - intros [|[|c]] Hc; [| |exfalso; cbn in Hc; lia]; (split; [cbn; lia|]); cbn; repeat split; reflexivity. }
  split; [split; [exact I|intros t []]|].
  split. { intros k Hk. cbn [In] in Hk. repeat destruct Hk as [<-|Hk]; try (vm_compute; discriminate). destruct Hk. }
  assert (W : forall y : nat -> Q, (0 <= y 0%nat <= 5) -> (0 <= y 1%nat <= 5) -> feasible (glp iG) y).
  { intros y H0 H1. split; [|intros i Hi; cbn in Hi; lia].
    intros [|[|j]] Hj; [| |exfalso; cbn in Hj; lia]; cbn [iG glp clo cup above below]; lra. }
  split; [apply W; split; vm_compute; discriminate|]. split; [apply W; split; vm_compute; discriminate|].
  split. { intros [|[|j]] Hj _; [exists 1%Z|exists 0%Z|exfalso; cbn in Hj; lia]; reflexivity. }
  split. { intros j Hj _. exists 1%Z. reflexivity. }
  split; [reflexivity|]. split; [vm_compute; discriminate|].
  split. { intros y [B _] Hy. pose proof (B 1%nat ltac:(cbn; lia)) as [B1 _]. cbn [iG glp clo above] in B1.
           cbn [Nat.eqb]. lra. }
  vm_compute. intro H. apply H. reflexivity.
Qed.
Print Assumptions vpc_integer_leaf_refuted.
