(** C07: the bound changes recorded for a term rebuild the box of the tree node and branch it stands for. *)
From Verif Require Import Prelude Model.Tolerance Model.LP Model.Disjunction Model.EventHandler
  Spec.LPSpec Spec.DisjSpec Spec.TreeSpec Proofs.ToleranceP Proofs.EventHandlerP Properties.C06_tree_coverage.
From Coq Require Import Permutation.

(** Bounds of a branch of a node: the node's, except the one that the branching sets. *)
Definition branch_lo (nd : cnode) (up : bool) (j : nat) : option Q :=
  if up && Nat.eqb j (cn_var nd) then Some (inject_Z (Qceiling (cn_value nd))) else cn_lo nd j.
Definition branch_up (nd : cnode) (up : bool) (j : nat) : option Q :=
  if negb up && Nat.eqb j (cn_var nd) then Some (inject_Z (Qfloor (cn_value nd))) else cn_hi nd j.
(** Equal bounds, or bounds that differ by at least the detection tolerance. *)
Definition same_or_apart (a b : option Q) : Prop :=
  match a, b with Some p, Some q => p == q \/ EPS7 <= Qabs (p - q) | _, _ => True end.
Definition equal_bound (a b : option Q) : Prop :=
  match a, b with Some p, Some q => p == q | None, None => True | _, _ => False end.

Lemma EPS7_pos : 0 < EPS7. Proof. reflexivity. Qed.
Lemma abs_eq p q : p == q -> Qabs (p - q) < EPS7.
Proof. intro H. rewrite H. assert (E : q - q == 0) by ring. rewrite E. exact EPS7_pos. Qed.
Lemma close_refl a : close_bound a a.
Proof.
  destruct a as [p|]; [|exact I]. apply abs_eq. reflexivity.
Qed.
Lemma close_sym a b : close_bound a b -> close_bound b a.
Proof. destruct a, b; try (intro H; exact H). unfold close_bound. intro H. rewrite Qabs_Qminus. exact H. Qed.

Lemma fold_set_lo cs : forall P j, clo (fold_left set_bound cs P) j = apply_lo cs (clo P) j.
Proof.
  induction cs as [|c cs IH]; intros P j; [reflexivity|]. cbn [fold_left]. rewrite IH. unfold apply_lo. cbn [fold_left].
  unfold set_bound, upd_lo. destruct (bc_bound c <=? 0)%Z; reflexivity.
Qed.
Lemma fold_set_up cs : forall P j, cup (fold_left set_bound cs P) j = apply_up cs (cup P) j.
Proof.
  induction cs as [|c cs IH]; intros P j; [reflexivity|]. cbn [fold_left]. rewrite IH. unfold apply_up. cbn [fold_left].
  unfold set_bound, upd_up. destruct (bc_bound c <=? 0)%Z; reflexivity.
Qed.
Lemma term_lp_bounds P d t j : td_ineqs t = [] ->
  clo (term_lp true P d t) j = apply_lo (td_changes t) (apply_lo (d_common d) (clo P)) j /\
  cup (term_lp true P d t) j = apply_up (td_changes t) (apply_up (d_common d) (cup P)) j.
Proof.
  intro I. unfold term_lp. rewrite I. cbn [fold_left apply_change].
  change (apply_change true) with (fun (P : lp) c => set_bound P c). change (fun (P : lp) c => set_bound P c) with set_bound.
  rewrite fold_set_lo, fold_set_up. split.
  - generalize (td_changes t). intro cs. revert j. assert (G : forall f g, (forall j, f j = g j) -> forall j, apply_lo cs f j = apply_lo cs g j).
    { induction cs as [|c cs IH]; intros f g H j; [apply H|]. unfold apply_lo in *. cbn [fold_left]. apply IH. intro i. unfold upd_lo.
      destruct (bc_bound c <=? 0)%Z; [|apply H]. destruct (Nat.eqb i (bc_var c)); [reflexivity|apply H]. }
    intro j. apply G. intro i. apply fold_set_lo.
  - generalize (td_changes t). intro cs. revert j. assert (G : forall f g, (forall j, f j = g j) -> forall j, apply_up cs f j = apply_up cs g j).
    { induction cs as [|c cs IH]; intros f g H j; [apply H|]. unfold apply_up in *. cbn [fold_left]. apply IH. intro i. unfold upd_up.
      destruct (bc_bound c <=? 0)%Z; [apply H|]. destruct (Nat.eqb i (bc_var c)); [reflexivity|apply H]. }
    intro j. apply G. intro i. apply fold_set_up.
Qed.

Lemma restored_close new old : (new = None -> old = None) -> close_bound (restored new old old) new.
Proof.
  intro H. unfold restored. destruct new as [v|]; [|rewrite (H eq_refl); exact I].
  destruct (isValB (Some v) old) eqn:E; [|apply close_refl]. apply close_sym, isValB_close, E.
Qed.
Lemma restored_equal new old : (new = None -> old = None) -> same_or_apart new old -> equal_bound (restored new old old) new.
Proof.
  intros H A. unfold restored. destruct new as [v|]; [|rewrite (H eq_refl); exact I].
  destruct (isValB (Some v) old) eqn:E; [|apply Qeq_refl]. destruct old as [q|]; [|discriminate].
  unfold isValB in E. apply isVal_iff in E. unfold same_or_apart in A. destruct A as [A|A]; [symmetry; exact A|].
  exfalso. apply (Qlt_not_le _ _ E A).
Qed.
Lemma restored_twice new old g : restored new old (restored new old g) = restored new old g.
Proof. unfold restored. destruct new; [|reflexivity]. destruct (isValB _ _); reflexivity. Qed.
Lemma within_lo_none a b : lo_within a b -> a = None -> b = None.
Proof. unfold lo_within. destruct b; [|reflexivity]. intros H ->. contradiction. Qed.
Lemma within_up_none a b : up_within a b -> a = None -> b = None.
Proof. unfold up_within. destruct b; [|reflexivity]. intros H ->. contradiction. Qed.
Lemma restored_none new old : restored new old old = None -> old = None.
Proof. unfold restored. destruct new; [|trivial]. destruct (isValB _ _); [trivial|discriminate]. Qed.

(** The shape of the bounds, before tolerance matters: the box of the node recorded against the box after the
    common changes. *)
Lemma term_bounds cfg root lo0 up0 nd up cs P d t :
  term_of cfg lo0 up0 root nd up cs -> td_changes t = cs -> td_ineqs t = [] -> d_common d = c0 cfg lo0 up0 root ->
  clo P = lo0 -> cup P = up0 ->
  exists v, v == branch_val (cn_value nd) up /\
  forall j, (j < c_n cfg)%nat ->
  let l1 := restored (cn_lo root j) (lo0 j) (lo0 j) in
  let u1 := restored (cn_hi root j) (up0 j) (up0 j) in
  exists l u, (l = restored (cn_lo nd j) l1 l1 \/ (l = l1 /\ cn_lo nd j = cn_lo root j)) /\
    (u = restored (cn_hi nd j) u1 u1 \/ (u = u1 /\ cn_hi nd j = cn_hi root j)) /\
    clo (term_lp true P d t) j = (if up && Nat.eqb j (cn_var nd) then Some v else l) /\
    cup (term_lp true P d t) j = (if negb up && Nat.eqb j (cn_var nd) then Some v else u).
Proof.
  intros (orig & o & v & BR & V & E & _) T I C PL PU. exists v. split; [exact V|]. intros j J. cbv zeta.
  destruct (term_lp_bounds P d t j I) as [-> ->]. rewrite T, E, C, PL, PU.
  set (cs0 := if Nat.eqb orig 0 then [] else ns_changes o).
  exists (apply_lo cs0 (lo1 cfg lo0 up0 root) j), (apply_up cs0 (up1 cfg lo0 up0 root) j).
  assert (L1 : lo1 cfg lo0 up0 root j = restored (cn_lo root j) (lo0 j) (lo0 j)) by (apply changed_lo; exact J).
  assert (U1 : up1 cfg lo0 up0 root j = restored (cn_hi root j) (up0 j) (up0 j)) by (apply changed_up; exact J).
  assert (A : (apply_lo cs0 (lo1 cfg lo0 up0 root) j = restored (cn_lo nd j) (lo1 cfg lo0 up0 root j) (lo1 cfg lo0 up0 root j) \/
               (apply_lo cs0 (lo1 cfg lo0 up0 root) j = lo1 cfg lo0 up0 root j /\ cn_lo nd j = cn_lo root j)) /\
              (apply_up cs0 (up1 cfg lo0 up0 root) j = restored (cn_hi nd j) (up1 cfg lo0 up0 root j) (up1 cfg lo0 up0 root j) \/
               (apply_up cs0 (up1 cfg lo0 up0 root) j = up1 cfg lo0 up0 root j /\ cn_hi nd j = cn_hi root j))).
  { unfold cs0. destruct BR as [(-> & B1 & B2)|(B0 & B1)].
    - split; right; (split; [reflexivity|congruence]).
    - apply Nat.eqb_neq in B0. rewrite B0. destruct B1 as [-> | ->].
      + split; left; [apply changed_lo|apply changed_up]; exact J.
      + rewrite apply_lo_app, apply_up_app. unfold cb. rewrite !changed_lo, !changed_up by exact J. rewrite !restored_twice. split; left; reflexivity. }
  rewrite L1, U1 in A. destruct A as [A1 A2]. split; [exact A1|]. split; [exact A2|].
  rewrite apply_lo_app, apply_up_app. fold (lo1 cfg lo0 up0 root) (up1 cfg lo0 up0 root).
  unfold apply_lo at 1, apply_up at 1. cbn [fold_left]. unfold upd_lo, upd_up.
  destruct up; cbn [bc_bound bc_var bc_val Z.leb Z.compare andb negb]; split; reflexivity.
Qed.

(** In the default mode every term (and when pruned nodes are kept every solved one) stands for an open branch
    of a node of the final tree: the solver built for it has the bounds of that branch, up to the tolerance with
    which bound changes are detected, and the branching bound itself. *)
Theorem term_box cfg ints lo0 up0 root d h st a st' P :
  root_ok (c_n cfg) ints root -> (0 < c_max cfg)%Z ->
  history cfg (lawful cfg ints) (h_init lo0 up0 root d) h st -> lawful cfg ints st a -> step cfg st a = EvStop st' ->
  box_within (c_n cfg) (cn_lo root) (cn_hi root) lo0 up0 ->
  (forall nd, In nd (h_tree st) -> box_within (c_n cfg) (cn_lo nd) (cn_hi nd) (cn_lo root) (cn_hi root)) ->
  clo P = lo0 -> cup P = up0 ->
  forall t, In t (d_terms (h_disj st')) -> c_keep cfg = false \/ td_feasible t = true ->
  exists nd up, In nd (h_tree st) /\ (cn_left nd = 1%nat -> up = cur_up nd) /\
  forall j, (j < c_n cfg)%nat ->
    close_bound (clo (term_lp true P (h_disj st') t) j) (branch_lo nd up j) /\
    close_bound (cup (term_lp true P (h_disj st') t) j) (branch_up nd up j).
Proof.
  intros RO MX H L ST BR BN PL PU t T TF.
  assert (R : run cfg (allowed cfg ints (fun _ => False)) (h_init lo0 up0 root d) st).
  { apply (history_run cfg ints _ h); [exact H|]. intros y []. }
  assert (AL : allowed cfg ints (fun _ => False) st a) by (apply lawful_allowed; [exact L|intros y []]).
  destruct (stop_spec cfg ints (fun _ => False) lo0 up0 root (fun y G => match G with end) RO (fun y G => match G with end) MX d st a st' R AL ST)
    as (ord & timeup & pok & solve & slo & sup & _ & PM & _ & _ & _ & CM & _ & _ & (ts & p & E & TS & PF & PK) & _ & _ & NI).
  assert (IT : In t ts).
  { rewrite E in T. apply in_app_or in T. destruct T as [T|T]; [exact T|]. destruct TF as [K|F].
    - rewrite (PK K) in T. destruct T.
    - specialize (PF t T). congruence. }
  destruct (TS t IT) as (TI & nd & up & IN & TO). exists nd, up.
  pose proof (Permutation_in nd (Permutation_sym PM) IN) as IN'. split; [exact IN'|].
  split; [destruct TO as (? & ? & ? & _ & _ & _ & Q); exact Q|].
  destruct (term_bounds cfg root lo0 up0 nd up _ P (h_disj st') t TO eq_refl TI CM PL PU) as (v & V & BB).
  intros j J. destruct (BB j J) as (l & u & A1 & A2 & -> & ->). destruct (BR j J) as [W1 W2]. destruct (BN nd IN' j J) as [W3 W4].
  split.
  - unfold branch_lo. destruct (up && Nat.eqb j (cn_var nd)) eqn:B.
    + apply andb_prop in B. destruct B as [-> _]. apply abs_eq, V.
    + destruct A1 as [-> |[-> ->]].
      * apply restored_close. intro Q. unfold restored. pose proof (within_lo_none _ _ W3 Q) as Q2. rewrite Q2. exact (within_lo_none _ _ W1 Q2).
      * apply restored_close. exact (within_lo_none _ _ W1).
  - unfold branch_up. destruct (negb up && Nat.eqb j (cn_var nd)) eqn:B.
    + apply andb_prop in B. destruct B as [B _]. apply negb_true_iff in B. subst up. apply abs_eq, V.
    + destruct A2 as [-> |[-> ->]].
      * apply restored_close. intro Q. unfold restored. pose proof (within_up_none _ _ W4 Q) as Q2. rewrite Q2. exact (within_up_none _ _ W2 Q2).
      * apply restored_close. exact (within_up_none _ _ W2).
Qed.
Print Assumptions term_box.

(** When bounds never move by less than the tolerance (integer bounds, for instance) the box is rebuilt
    exactly. *)
Theorem term_box_exact cfg ints lo0 up0 root d h st a st' P :
  root_ok (c_n cfg) ints root -> (0 < c_max cfg)%Z ->
  history cfg (lawful cfg ints) (h_init lo0 up0 root d) h st -> lawful cfg ints st a -> step cfg st a = EvStop st' ->
  box_within (c_n cfg) (cn_lo root) (cn_hi root) lo0 up0 ->
  (forall nd, In nd (h_tree st) -> box_within (c_n cfg) (cn_lo nd) (cn_hi nd) (cn_lo root) (cn_hi root)) ->
  (forall j, (j < c_n cfg)%nat -> same_or_apart (cn_lo root j) (lo0 j) /\ same_or_apart (cn_hi root j) (up0 j)) ->
  (forall nd j, In nd (h_tree st) -> (j < c_n cfg)%nat ->
     same_or_apart (cn_lo nd j) (cn_lo root j) /\ same_or_apart (cn_hi nd j) (cn_hi root j)) ->
  clo P = lo0 -> cup P = up0 ->
  forall t, In t (d_terms (h_disj st')) -> c_keep cfg = false \/ td_feasible t = true ->
  exists nd up, In nd (h_tree st) /\ (cn_left nd = 1%nat -> up = cur_up nd) /\
  forall j, (j < c_n cfg)%nat ->
    equal_bound (clo (term_lp true P (h_disj st') t) j) (branch_lo nd up j) /\
    equal_bound (cup (term_lp true P (h_disj st') t) j) (branch_up nd up j).
Proof.
  intros RO MX H L ST BR BN AR AN PL PU t T TF.
  assert (R : run cfg (allowed cfg ints (fun _ => False)) (h_init lo0 up0 root d) st).
  { apply (history_run cfg ints _ h); [exact H|]. intros y []. }
  assert (AL : allowed cfg ints (fun _ => False) st a) by (apply lawful_allowed; [exact L|intros y []]).
  destruct (stop_spec cfg ints (fun _ => False) lo0 up0 root (fun y G => match G with end) RO (fun y G => match G with end) MX d st a st' R AL ST)
    as (ord & timeup & pok & solve & slo & sup & _ & PM & _ & _ & _ & CM & _ & _ & (ts & p & E & TS & PF & PK) & _ & _ & NI).
  assert (IT : In t ts).
  { rewrite E in T. apply in_app_or in T. destruct T as [T|T]; [exact T|]. destruct TF as [K|F].
    - rewrite (PK K) in T. destruct T.
    - specialize (PF t T). congruence. }
  destruct (TS t IT) as (TI & nd & up & IN & TO). exists nd, up.
  pose proof (Permutation_in nd (Permutation_sym PM) IN) as IN'. split; [exact IN'|].
  split; [destruct TO as (? & ? & ? & _ & _ & _ & Q); exact Q|].
  destruct (term_bounds cfg root lo0 up0 nd up _ P (h_disj st') t TO eq_refl TI CM PL PU) as (v & V & BB).
  assert (KEY : forall new r old, (r = None -> old = None) -> (new = None -> r = None) -> same_or_apart r old -> same_or_apart new r ->
     forall l, (l = restored new (restored r old old) (restored r old old) \/ (l = restored r old old /\ new = r)) -> equal_bound l new).
  { intros new r old H1 H2 H3 H4 l [-> |[-> ->]].
    - apply restored_equal.
      + intro Q. unfold restored. rewrite (H2 Q). exact (H1 (H2 Q)).
      + pose proof (restored_equal r old H1 H3) as Q. destruct new as [a1|]; [|exact I]. destruct r as [b|].
        * destruct (restored (Some b) old old) as [c|]; [|exact I]. unfold equal_bound in Q. unfold same_or_apart in *. rewrite Q. exact H4.
        * unfold restored. rewrite (H1 eq_refl). exact I.
    - apply restored_equal; assumption. }
  intros j J. destruct (BB j J) as (l & u & A1 & A2 & -> & ->). destruct (BR j J) as [W1 W2]. destruct (BN nd IN' j J) as [W3 W4].
  destruct (AR j J) as [R1 R2]. destruct (AN nd j IN' J) as [R3 R4].
  split.
  - unfold branch_lo. destruct (up && Nat.eqb j (cn_var nd)) eqn:B.
    + apply andb_prop in B. destruct B as [-> _]. exact V.
    + apply (KEY _ (cn_lo root j) (lo0 j)); try assumption; [apply within_lo_none, W1|apply within_lo_none, W3].
  - unfold branch_up. destruct (negb up && Nat.eqb j (cn_var nd)) eqn:B.
    + apply andb_prop in B. destruct B as [B _]. apply negb_true_iff in B. subst up. exact V.
    + apply (KEY _ (cn_hi root j) (up0 j)); try assumption; [apply within_up_none, W2|apply within_up_none, W4].
Qed.
Print Assumptions term_box_exact.

(** The run of C06 meets the hypotheses. *)
Definition ex_P : lp := {| ncols := 2; nrows := 0; clo := ex_box 0 0; cup := ex_box 1 1; rows := fun _ => {| rcoef := []; rlo := None; rup := None |}; obj := fun _ => 0 |}.
Example term_box_example :
  forall t, In t (d_terms (h_disj ex_s3)) -> exists nd up, In nd (h_tree ex_s2) /\ (cn_left nd = 1%nat -> up = cur_up nd) /\
  forall j, (j < 2)%nat ->
    equal_bound (clo (term_lp true ex_P (h_disj ex_s3) t) j) (branch_lo nd up j) /\
    equal_bound (cup (term_lp true ex_P (h_disj ex_s3) t) j) (branch_up nd up j).
Proof.
  destruct tree_covers_example as (H & L & S & _). intros t T.
  assert (W : forall nd, In nd (h_tree ex_s2) -> box_within 2 (cn_lo nd) (cn_hi nd) (cn_lo ex_root) (cn_hi ex_root)).
  { intros nd N. vm_compute in N. destruct N as [<-|[<-|[]]]; intros [|[|j]] J; try lia; cbn; lra. }
  apply (term_box_exact (ex_cfg false 3) (fun _ => true) _ _ ex_root disj_new _ _ _ _ ex_P ex_root_ok eq_refl H L S); try reflexivity; try assumption.
  - intros [|[|j]] J; try (cbn in J; lia); cbn; lra.
  - intros [|[|j]] J; try (cbn in J; lia); cbn; lra.
  - intros nd j N J. vm_compute in N. destruct N as [<-|[<-|[]]]; (destruct j as [|[|j]]; [| |cbn in J; lia]); cbn;
      try (split; left; reflexivity). split; [right; vm_compute; discriminate|left; reflexivity].
  - left. reflexivity.
Qed.

(** A bound moved by less than the tolerance is not recorded: the term's box is then larger than the node's. *)
Theorem small_move_refuted :
  exists lo olo, lo 0%nat = Some (1 # 100000000) /\ olo 0%nat = Some 0 /\
  changedBounds 1 lo (fun _ => None) olo (fun _ => None) = [].
Proof. exists (fun _ => Some (1 # 100000000)), (fun _ => Some 0). split; [reflexivity|]. split; reflexivity. Qed.
Print Assumptions small_move_refuted.
