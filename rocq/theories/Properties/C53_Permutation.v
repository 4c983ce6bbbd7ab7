(** C53: the permuted problem of a repeated run. *)
From Verif Require Import Prelude Model.LP Model.BBInfo Model.Disjunction Spec.LPSpec.
From Coq Require Import Lqa Permutation.

(** ** Lemmas *)
Lemma seq_nth_map cp n : length cp = n -> map (fun c => nth c cp O) (seq 0 n) = cp.
Proof.
  intros <-. induction cp as [|a cp IH]; [reflexivity|]. cbn [length seq map nth].
  rewrite <- seq_shift, map_map. f_equal. exact IH.
Qed.
Lemma pdot_at c (l : list (nat * Q)) x : pdot (map (fun e => (c, snd e)) l) x == Qsumf (fun e => snd e) l * x c.
Proof.
  induction l as [|e l IH]; [cbn [map]; rewrite pdot_nil, Qsumf_nil; ring|]. cbn [map]. rewrite pdot_cons. cbn [fst snd]. rewrite IH. rewrite ?Qsumf_cons. ring.
Qed.
Definition part (k : nat) (r : list (nat * Q)) : Q := Qsumf (fun e => snd e) (filter (fun e => Nat.eqb (fst e) k) r).
Lemma permute_pdot cs cp r y : pdot (flat_map (fun c => map (fun e => (c, snd e)) (filter (fun e => Nat.eqb (fst e) (cp c)) r)) cs) y
  == Qsumf (fun c => part (cp c) r * y c) cs.
Proof.
  induction cs as [|c cs IH]; [reflexivity|]. cbn [flat_map]. rewrite Qsumf_cons. rewrite pdot_app, IH, pdot_at. unfold part. reflexivity.
Qed.
Lemma sum_single (x : nat -> Q) (a : Q) k : forall ks, NoDup ks -> In k ks ->
  Qsumf (fun j => (if Nat.eqb k j then a else 0) * x j) ks == a * x k.
Proof.
  assert (Z0 : forall ks, ~ In k ks -> Qsumf (fun j => (if Nat.eqb k j then a else 0) * x j) ks == 0).
  { induction ks as [|j ks IH]; [reflexivity|]. intros N. rewrite ?Qsumf_cons. rewrite IH by (intros H; apply N; right; exact H).
    destruct (Nat.eqb_spec k j) as [E|_]; [subst; exfalso; apply N; left; reflexivity|]. ring. }
  induction ks as [|j ks IH]; intros ND I0; [destruct I0|]. inversion ND; subst. rewrite ?Qsumf_cons.
  destruct (Nat.eqb_spec k j) as [E|E].
  - subst. rewrite Z0 by assumption. ring.
  - destruct I0 as [->|I0]; [congruence|]. rewrite IH by assumption. ring.
Qed.
Lemma parts_sum (x : nat -> Q) ks : NoDup ks -> forall r, Forall (fun e : nat * Q => In (fst e) ks) r ->
  Qsumf (fun k => part k r * x k) ks == pdot r x.
Proof.
  intros ND r F. induction F as [|[k a] r H F IH].
  - rewrite pdot_nil. clear ND. induction ks as [|k ks IH]; [reflexivity|]. rewrite ?Qsumf_cons. rewrite IH. unfold part. cbn [filter]. rewrite Qsumf_nil. ring.
  - rewrite pdot_cons. cbn [fst snd] in *. rewrite <- IH.
    transitivity (Qsumf (fun j => (if Nat.eqb k j then a else 0) * x j) ks + Qsumf (fun j => part j r * x j) ks).
    + clear ND IH H F. induction ks as [|j ks IH]; [rewrite !Qsumf_nil; ring|]. rewrite ?Qsumf_cons. rewrite IH. unfold part. cbn [filter fst].
      destruct (Nat.eqb k j); rewrite ?Qsumf_cons; cbn [snd]; ring.
    + rewrite (sum_single x a k ks ND H). reflexivity.
Qed.

Lemma permute_row_pdot n cp r (x : nat -> Q) : Permutation (seq 0 n) cp ->
  Forall (fun e : nat * Q => (fst e < n)%nat) r ->
  pdot (permute_row n (fun j => nth j cp O) r) (fun j => x (nth j cp O)) == pdot r x.
Proof.
  intros P F. unfold permute_row. rewrite permute_pdot.
  assert (L : length cp = n) by (rewrite <- (Permutation_length P); apply seq_length).
  transitivity (Qsumf (fun k => part k r * x k) (map (fun c => nth c cp O) (seq 0 n))).
  - unfold Qsumf. rewrite map_map. reflexivity.
  - rewrite seq_nth_map by exact L. apply parts_sum.
    + eapply Permutation_NoDup; [exact P|apply seq_NoDup].
    + eapply Forall_impl; [|exact F]. intros e He. cbv beta in He. eapply Permutation_in; [exact P|]. apply in_seq. split; [lia|exact He].
Qed.
Lemma perm_nth n cp : Permutation (seq 0 n) cp ->
  (forall j, (j < n)%nat -> (nth j cp O < n)%nat) /\
  (forall k, (k < n)%nat -> exists j, (j < n)%nat /\ nth j cp O = k).
Proof.
  intros P. assert (L : length cp = n) by (rewrite <- (Permutation_length P); apply seq_length). split.
  - intros j Hj. assert (I0 : In (nth j cp O) (seq 0 n)).
    { eapply Permutation_in; [apply Permutation_sym, P|]. apply nth_In. lia. }
    apply in_seq in I0. lia.
  - intros k Hk. assert (I0 : In k cp) by (eapply Permutation_in; [exact P|apply in_seq; lia]).
    apply (In_nth _ _ O) in I0. destruct I0 as (j & Hj & E). exists j. split; [lia|exact E].
Qed.
Lemma range_ext lo up v w : v == w -> above lo v /\ below up v -> above lo w /\ below up w.
Proof. intros E (A & B). split; [destruct lo|destruct up]; cbn [above below] in *; try exact I; rewrite <- E; assumption. Qed.
Lemma square_identity P : ncols P = nrows P -> col_identity P = Some (seq 0 (ncols P)).
Proof.
  intros E. unfold col_identity. rewrite E, Nat.leb_refl, Nat.sub_diag. cbn [repeat]. rewrite app_nil_r. reflexivity.
Qed.

(** A problem with as many columns as rows: for every outcome of the two shuffles, the points of the
    permuted problem are exactly the renamed points of the original ... *)
Definition well_indexed (P : lp) : Prop :=
  forall i, (i < nrows P)%nat -> Forall (fun e : nat * Q => (fst e < ncols P)%nat) (rcoef (rows P i)).
Theorem square_same_points : forall P rp cp ci x,
  ncols P = nrows P -> well_indexed P ->
  col_identity P = Some ci -> Permutation (row_identity P) rp -> Permutation ci cp ->
  (feasible P x <-> feasible (permuted P rp cp) (fun j => x (nth j cp O))).
Proof.
  intros P rp cp ci x E W C R K. rewrite (square_identity P E) in C. injection C as <-.
  destruct (perm_nth _ _ K) as (C1 & C2). destruct (perm_nth _ _ R) as (R1 & R2).
  split; intros (B & F); (split; [intros j Hj|intros i Hi]).
  - apply (B (nth j cp O)). apply C1. exact Hj.
  - cbn [nrows rows permuted rlo rup rcoef] in *. 
    eapply range_ext; [symmetry; apply (permute_row_pdot (ncols P) cp _ x K); apply W, R1, Hi|].
    apply F, R1, Hi.
  - destruct (C2 j Hj) as (c & Hc & <-). apply (B c Hc).
  - destruct (R2 i Hi) as (r & Hr & <-). specialize (F r Hr). cbn [nrows rows permuted rlo rup rcoef] in F.
    eapply range_ext; [apply (permute_row_pdot (ncols P) cp _ x K); apply W, R1, Hr|]. exact F.
Qed.
(** ... every point of the permuted problem is one of these ... *)
Theorem square_no_other_points : forall P rp cp ci y,
  ncols P = nrows P -> well_indexed P ->
  col_identity P = Some ci -> Permutation (row_identity P) rp -> Permutation ci cp ->
  feasible (permuted P rp cp) y ->
  exists x, feasible P x /\ forall j, (j < ncols P)%nat -> y j = x (nth j cp O).
Proof.
  intros P rp cp ci y E W C R K F. pose proof C as C'. rewrite (square_identity P E) in C'. injection C' as <-.
  destruct (perm_nth _ _ K) as (C1 & C2).
  assert (Ncp : NoDup cp) by (eapply Permutation_NoDup; [exact K|apply seq_NoDup]).
  assert (L : length cp = ncols P) by (rewrite <- (Permutation_length K); apply seq_length).
  (* position of k in cp *)
  pose (pos := fun k => nth 0 (filter (fun j => Nat.eqb (nth j cp O) k) (seq 0 (ncols P))) O).
  assert (Hpos : forall j, (j < ncols P)%nat -> pos (nth j cp O) = j).
  { intros j Hj. unfold pos.
    destruct (filter (fun j0 => Nat.eqb (nth j0 cp O) (nth j cp O)) (seq 0 (ncols P))) as [|h t] eqn:Ef.
    - exfalso. assert (I0 : In j []) by (rewrite <- Ef; apply filter_In; split; [apply in_seq; lia|apply Nat.eqb_refl]). destruct I0.
    - cbn [nth]. assert (I0 : In h (h :: t)) by (left; reflexivity). rewrite <- Ef in I0. apply filter_In in I0.
      destruct I0 as [I0 Eh]. apply in_seq in I0. apply Nat.eqb_eq in Eh.
      apply (proj1 (NoDup_nth cp O) Ncp); lia. }
  exists (fun k => y (pos k)).
  assert (EQ : forall j, (j < ncols P)%nat -> y j = (fun k => y (pos k)) (nth j cp O)) by (intros j Hj; cbv beta; rewrite Hpos by exact Hj; reflexivity).
  split; [|exact EQ]. apply (square_same_points P rp cp (seq 0 (ncols P)) _ E W C R K).
  destruct F as (B & F). split; [intros j Hj|intros i Hi].
  - pose proof (B j Hj) as Bj. rewrite (EQ j Hj) in Bj. exact Bj.
  - specialize (F i Hi). cbn [nrows rows permuted rlo rup rcoef] in *.
    match goal with |- context [pdot ?r ?g] => assert (EP : pdot r g == pdot r y) end.
    { destruct (perm_nth _ _ R) as (R1 & _). unfold permute_row. rewrite !permute_pdot. apply Qsumf_ext.
      intros c Hc. apply in_seq in Hc. rewrite (EQ c) by lia. reflexivity. }
    eapply range_ext; [symmetry; exact EP|exact F].
Qed.
(** ... with the same objective value. *)
Theorem square_same_objective : forall P rp cp ci x,
  ncols P = nrows P -> col_identity P = Some ci -> Permutation ci cp ->
  Qsumf (fun j => obj (permuted P rp cp) j * x (nth j cp O)) (seq 0 (ncols P))
  == Qsumf (fun j => obj P j * x j) (seq 0 (ncols P)).
Proof.
  intros P rp cp ci x E C K. rewrite (square_identity P E) in C. injection C as <-.
  assert (L : length cp = ncols P) by (rewrite <- (Permutation_length K); apply seq_length).
  cbn [obj permuted].
  transitivity (Qsumf (fun k => obj P k * x k) (map (fun c => nth c cp O) (seq 0 (ncols P)))).
  { unfold Qsumf. rewrite map_map. reflexivity. }
  rewrite seq_nth_map by exact L. unfold Qsumf. clear -K.
  assert (G : forall a b : list Q, Permutation a b -> Qsum a == Qsum b).
  { intros a b H. induction H as [|u a b H IH|u v a|a b c H1 IH1 H2 IH2]; cbn [Qsum fold_right] in *.
    - reflexivity.
    - unfold Qsum in *. cbn [fold_right]. rewrite IH. reflexivity.
    - unfold Qsum. cbn [fold_right]. ring.
    - rewrite IH1. exact IH2. }
  apply G, Permutation_map, Permutation_sym, K.
Qed.

(** Integrality: the columns marked are those of the original numbering, so the renamed problem has
    the right integer columns exactly when the shuffle keeps each column's type. *)
Theorem integrality_marked : forall P ints cp ci,
  ncols P = nrows P -> col_identity P = Some ci -> Permutation ci cp ->
  (forall k, (k < ncols P)%nat -> permuted_ints P ints cp k = ints k) /\
  ((forall j, (j < ncols P)%nat -> permuted_ints P ints cp j = ints (nth j cp O)) <->
   (forall j, (j < ncols P)%nat -> ints (nth j cp O) = ints j)).
Proof.
  intros P ints cp ci E C K. rewrite (square_identity P E) in C. injection C as <-.
  destruct (perm_nth _ _ K) as (C1 & C2).
  assert (A : forall k, (k < ncols P)%nat -> permuted_ints P ints cp k = ints k).
  { intros k Hk. unfold permuted_ints. destruct (ints k) eqn:Ek.
    - apply existsb_exists. destruct (C2 k Hk) as (j & Hj & Ej). exists j. split; [apply in_seq; lia|].
      rewrite Ej, Ek, Nat.eqb_refl. reflexivity.
    - destruct (existsb _ _) eqn:Ex; [|reflexivity]. exfalso. apply existsb_exists in Ex. destruct Ex as (j & _ & H).
      apply andb_true_iff in H. destruct H as [H1 H2]. apply Nat.eqb_eq in H2. rewrite H2 in H1. congruence. }
  split; [exact A|]. split; intros H j Hj.
  - rewrite <- (H j Hj). apply A, Hj.
  - rewrite (H j Hj). apply A, Hj.
Qed.

(** ** Examples and refutations *)
Definition sq : lp :=
  {| ncols := 2; nrows := 2; clo := fun _ => Some 0; cup := fun j => if Nat.eqb j 0 then Some 1 else Some 9;
     rows := fun i => if Nat.eqb i 0 then {| rcoef := [(0%nat, 2); (1%nat, 3)]; rlo := None; rup := Some 7 |}
                      else {| rcoef := [(1%nat, 1)]; rlo := Some (1#2); rup := None |};
     obj := fun j => if Nat.eqb j 0 then 5 else 6 |}.
Example square_example : ncols sq = nrows sq /\ well_indexed sq /\ col_identity sq = Some [0; 1]%nat /\
  Permutation [0; 1]%nat [1; 0]%nat /\ feasible sq (fun j => if Nat.eqb j 0 then 0 else 2) /\
  rcoef (rows (permuted sq [1; 0]%nat [1; 0]%nat) 1%nat) = [(0%nat, 3); (1%nat, 2)].
Proof.
  split; [reflexivity|]. split.
  - intros [|[|i]] Hi; cbn in *; repeat constructor; cbn; lia.
  - split; [reflexivity|]. split; [constructor|]. split; [|reflexivity]. split.
    + intros [|[|j]] Hj; cbn in Hj; try lia; split; vm_compute; discriminate.
    + intros [|[|j]] Hj; cbn in Hj; try lia; split; try exact I; vm_compute; discriminate.
Qed.

(** With the two columns exchanged, column 1 (integer in the original) is marked instead of the
    column that took its place. *)
Theorem integrality_refuted : exists ints,
  Permutation [0; 1]%nat [1; 0]%nat /\ permuted_ints sq ints [1; 0]%nat 0%nat = false /\ ints (nth 0 [1; 0]%nat O) = true.
Proof. exists (fun j => Nat.eqb j 1). split; [constructor|]. split; reflexivity. Qed.

(** More columns than rows: the permutation vector is written out of bounds. *)
Theorem more_columns_refuted : forall P, (nrows P < ncols P)%nat -> col_identity P = None.
Proof. intros P H. unfold col_identity. replace (Nat.leb (ncols P) (nrows P)) with false; [reflexivity|]. symmetry. apply Nat.leb_gt. exact H. Qed.

(** Fewer columns than rows: the vector is filled up with zeros before it is shuffled, so a shuffle
    can duplicate column 0 and lose another one: here a feasible problem becomes infeasible. *)
Definition tall : lp :=
  {| ncols := 2; nrows := 3; clo := fun _ => Some 0; cup := fun j => if Nat.eqb j 0 then Some 1 else Some 9;
     rows := fun _ => {| rcoef := [(1%nat, 1)]; rlo := Some 5; rup := None |}; obj := fun _ => 1 |}.
Theorem fewer_columns_refuted : exists cp,
  col_identity tall = Some [0; 1; 0]%nat /\ Permutation [0; 1; 0]%nat cp /\
  (exists x, feasible tall x) /\ forall y, ~ feasible (permuted tall [0; 1; 2]%nat cp) y.
Proof.
  exists [0; 0; 1]%nat. split; [reflexivity|]. split; [apply perm_skip, perm_swap|]. split.
  - exists (fun j => if Nat.eqb j 0 then 0 else 5). split.
    + intros [|[|j]] Hj; cbn in Hj; try lia; split; vm_compute; discriminate.
    + intros i Hi. split; [|exact I]. vm_compute. discriminate.
  - intros y (_ & F). destruct (F 0%nat ltac:(cbn; lia)) as [F0 _].
    cbn [permuted rows rlo rcoef above tall ncols] in F0. apply F0. reflexivity.
Qed.

(** The cuts handed to the solver keep their original column numbers: a cut satisfied by every point
    of the problem removes the (renamed) feasible points of the permuted one.  The problem of the run
    is the permuted problem with the cut's row added (CbcHelper.cpp:319-322). *)
Theorem cuts_not_renamed_refuted : exists (c : row),
  (forall x, feasible sq x -> feasible (add_row_lp sq c) x) /\
  exists x, feasible sq x /\ ~ feasible (add_row_lp (permuted sq [0; 1]%nat [1; 0]%nat) c) (fun j => x (nth j [1; 0]%nat O)).
Proof.
  exists {| rcoef := [(0%nat, 1)]; rlo := None; rup := Some 1 |}. split.
  - intros x (B & F). split; [exact B|]. intros i Hi. cbn [add_row_lp nrows rows sq] in Hi.
    cbn [add_row_lp rows]. destruct (Nat.eqb_spec i (nrows sq)) as [E|E].
    + cbn [rlo rup rcoef above below]. split; [exact I|]. destruct (B 0%nat ltac:(cbn; lia)) as [_ U]. cbn [below cup sq Nat.eqb] in U.
      rewrite pdot_cons, pdot_nil. cbn [fst snd]. lra.
    + apply F. cbn [nrows sq] in *. lia.
  - exists (fun j => if Nat.eqb j 0 then 0 else 2). split; [exact (proj1 (proj2 (proj2 (proj2 (proj2 square_example)))))|].
    intros (_ & F). destruct (F 2%nat ltac:(cbn; lia)) as [_ U]. vm_compute in U. apply U. reflexivity.
Qed.

Print Assumptions square_same_points.
Print Assumptions square_no_other_points.
Print Assumptions square_same_objective.
Print Assumptions integrality_marked.
Print Assumptions integrality_refuted.
Print Assumptions more_columns_refuted.
Print Assumptions fewer_columns_refuted.
Print Assumptions cuts_not_renamed_refuted.
