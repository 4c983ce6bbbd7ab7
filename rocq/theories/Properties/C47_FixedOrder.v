(** C47, method 7: the search branches on the integer variables in their order. *)
From Verif Require Import Prelude Model.StrongBranch.
From Coq Require Import Qround.
#[local] Open Scope Q_scope.

(** Object [i] is the variable [nth i cols]; it is open while its bounds differ. *)
Definition var_of (cols : list nat) (i : nat) : nat := nth i cols 0%nat.
Definition open_at (lower upper : nat -> Q) (cols : list nat) (i : nat) : Prop := lower (var_of cols i) < upper (var_of cols i).

Lemma first_unfixed_spec lower upper cols : forall rest pre, cols = pre ++ rest ->
  match first_unfixed lower upper (length pre) rest with
  | Some (i, v) => (length pre <= i < length cols)%nat /\ v = var_of cols i /\ open_at lower upper cols i /\
                   forall j, (length pre <= j < i)%nat -> ~ open_at lower upper cols j
  | None => forall j, (length pre <= j < length cols)%nat -> ~ open_at lower upper cols j
  end.
Proof.
  induction rest as [|v r IH]; intros pre E; cbn [first_unfixed].
  - intros j Hj. rewrite E, app_nil_r in Hj. lia.
  - assert (NV : var_of cols (length pre) = v) by (unfold var_of; rewrite E, app_nth2, Nat.sub_diag by lia; reflexivity).
    assert (LC : (length pre < length cols)%nat) by (rewrite E, app_length; cbn [length]; lia).
    destruct (Qltb_reflect (lower v) (upper v)) as [H|H].
    + split; [lia|]. split; [congruence|]. split; [unfold open_at; rewrite NV; exact H|]. intros j Hj. lia.
    + specialize (IH (pre ++ [v])). rewrite <- app_assoc in IH. specialize (IH E). rewrite app_length in IH. cbn [length] in IH. rewrite Nat.add_1_r in IH.
      assert (N0 : ~ open_at lower upper cols (length pre)) by (unfold open_at; rewrite NV; exact H).
      destruct (first_unfixed lower upper (S (length pre)) r) as [[i w]|].
      * destruct IH as (I1 & I2 & I3 & I4). split; [lia|]. split; [exact I2|]. split; [exact I3|]. intros j Hj. destruct (Nat.eq_dec j (length pre)) as [->|N]; [exact N0|apply I4; lia].
      * intros j Hj. destruct (Nat.eq_dec j (length pre)) as [->|N]; [exact N0|apply IH; lia].
Qed.
Lemma scan_spec lower upper cols d : (d <= length cols)%nat ->
  match first_unfixed lower upper d (skipn d cols) with
  | Some (i, v) => (d <= i < length cols)%nat /\ v = var_of cols i /\ open_at lower upper cols i /\
                   forall j, (d <= j < i)%nat -> ~ open_at lower upper cols j
  | None => forall j, (d <= j < length cols)%nat -> ~ open_at lower upper cols j
  end.
Proof.
  intro L. assert (LP : length (firstn d cols) = d) by (apply firstn_length_le; exact L).
  pose proof (first_unfixed_spec lower upper cols (skipn d cols) (firstn d cols) (eq_sym (firstn_skipn d cols))) as K. rewrite LP in K. exact K.
Qed.

(** What a call answers.  A candidate (code 0) is the first open variable from the node's depth on; down first; only
    its value is changed.  Code 1 and a saved solution: exactly when the solver's solution is integer-feasible.
    Otherwise -1 and no candidate. *)
Theorem fixed_order : forall optimal infeasible feasible depth cols lower upper sol r,
  (optimal = true -> infeasible = false) ->
  chooseVariable7 optimal infeasible feasible depth cols lower upper sol = Some r ->
  (sv_code r = 1 /\ feasible = true /\ sv_saved r = true /\ sv_index r = None)%Z \/
  (sv_code r = 0 /\ feasible = false /\ optimal = true /\ sv_saved r = false /\ sv_way r = 0 /\
     exists i, sv_index r = Some i /\ (depth <= i < length cols)%nat /\ open_at lower upper cols i /\
       (forall j, (depth <= j < i)%nat -> ~ open_at lower upper cols j) /\ forall c, c <> var_of cols i -> sv_sol r c = sol c)%Z \/
  (sv_code r = -1 /\ feasible = false /\ infeasible = true /\ sv_saved r = false /\ sv_index r = None)%Z.
Proof.
  intros optimal infeasible feasible depth cols lower upper sol r OI E. unfold chooseVariable7 in E.
  destruct feasible; [injection E as <-; left; auto|]. right.
  destruct optimal; cbn [negb] in E.
  - specialize (OI eq_refl). subst infeasible. left. cbn [Z.eqb andb] in E. destruct (Nat.ltb_spec depth (length cols)) as [L|L]; [|discriminate].
    pose proof (scan_spec lower upper cols depth (Nat.lt_le_incl _ _ L)) as SS. destruct (first_unfixed _ _ _ _) as [[i v]|]; [|discriminate].
    injection E as <-. destruct SS as (S1 & S2 & S3 & S4). cbn [sv_code sv_index sv_way sv_saved sv_sol]. do 5 (split; [reflexivity|]).
    exists i. split; [reflexivity|]. split; [exact S1|]. split; [exact S3|]. split; [exact S4|]. intros c Hc. destruct (Nat.eqb_spec c v); [congruence|reflexivity].
  - right. cbn [Z.eqb andb] in E. destruct infeasible; [|discriminate]. injection E as <-. auto.
Qed.
Print Assumptions fixed_order.

(** The value handed on for a variable that can take exactly two consecutive values lies strictly between them, so
    branching down and branching up on it both fix the variable. *)
Lemma inside lb ub val : ub == lb + 1 -> lb - (1 # 1000) <= val <= ub + (1 # 1000) -> lb < move_inside lb ub val < ub.
Proof.
  intros E [H1 H2]. unfold move_inside. destruct (Qle_bool (ub - (1 # 1000)) val) eqn:E1.
  - apply Qle_bool_le in E1. setoid_replace ((ub - lb) / 2) with (1 # 2) by (rewrite E; field). lra.
  - apply Qle_bool_gt in E1. destruct (Qle_bool val (lb + (1 # 1000))) eqn:E2.
    + apply Qle_bool_le in E2. setoid_replace ((ub - lb) / 2) with (1 # 2) by (rewrite E; field). lra.
    + apply Qle_bool_gt in E2. lra.
Qed.

(** ** The search below the root.
    A node: its bounds.  At every node bounds of the listed variables are integers, and the solution given to the call
    is within 0.001 of the bounds. *)
Record node := { n_lo : nat -> Q; n_up : nat -> Q; n_sol : nat -> Q }.
Definition is_int (q : Q) : Prop := exists z : Z, q == inject_Z z.
Definition node_ok (cols : list nat) (a : node) : Prop := forall c, In c cols ->
  is_int (n_lo a c) /\ is_int (n_up a c) /\ n_lo a c - (1 # 1000) <= n_sol a c <= n_up a c + (1 # 1000).
(** [b] is a child of [a], in which variable [c] has been given the value [v]: c <= floor v or c >= ceil v, and perhaps
    more bounds are tightened. *)
Definition child (a : node) (c : nat) (v : Q) (b : node) : Prop :=
  (forall j, n_lo a j <= n_lo b j /\ n_up b j <= n_up a j) /\
  (n_up b c <= inject_Z (Qfloor v) \/ inject_Z (Qceiling v) <= n_lo b c).
(** A path: from a root at depth [d], each node but the last was branched on with the candidate of the call; [is]: the
    candidates. *)
Inductive path (cols : list nat) : nat -> node -> list nat -> nat -> node -> Prop :=
| path_here d a : node_ok cols a -> path cols d a [] d a
| path_down d a optimal infeasible feasible r i b is e z : node_ok cols a ->
    chooseVariable7 optimal infeasible feasible d cols (n_lo a) (n_up a) (n_sol a) = Some r ->
    sv_code r = 0%Z -> sv_index r = Some i -> (optimal = true -> infeasible = false) ->
    child a (var_of cols i) (sv_sol r (var_of cols i)) b ->
    path cols (S d) b is e z -> path cols d a (i :: is) e z.

(** Every listed variable has at most two values left. *)
Definition two_values (cols : list nat) (a : node) : Prop := forall c, In c cols -> n_up a c <= n_lo a c + 1.

Lemma int_gap a b : is_int a -> is_int b -> a < b -> a + 1 <= b.
Proof.
  intros [x Ex] [y Ey] H. rewrite Ex, Ey in *. rewrite <- Zlt_Qlt in H. change 1 with (inject_Z 1). rewrite <- inject_Z_plus, <- Zle_Qle. lia.
Qed.

Lemma var_in cols i : (i < length cols)%nat -> In (var_of cols i) cols.
Proof. intro H. apply nth_In. exact H. Qed.
Lemma child_closes cols a i v b : (i < length cols)%nat -> node_ok cols a -> node_ok cols b -> n_lo a (var_of cols i) < v < n_up a (var_of cols i) ->
  two_values cols a -> child a (var_of cols i) v b -> ~ open_at (n_lo b) (n_up b) cols i.
Proof.
  intros Hi Ka Kb [V1 V2] TV [C1 C2] OP. unfold open_at in OP. set (c := var_of cols i) in *. assert (Hc : In c cols) by (apply var_in; exact Hi).
  destruct (Ka c Hc) as ([x Ex] & [y Ey] & _). destruct (Kb c Hc) as ([x' Ex'] & [y' Ey'] & _). specialize (TV c Hc). destruct (C1 c) as [C3 C4].
  rewrite Ex, Ey, Ex', Ey' in *.
  destruct C2 as [C2|C2].
  - pose proof (Qfloor_le v) as F.
    assert (inject_Z (Qfloor v) < inject_Z y) by lra. rewrite <- Zlt_Qlt in *. rewrite <- Zle_Qle in *.
    change 1 with (inject_Z 1) in TV. rewrite <- inject_Z_plus, <- Zle_Qle in TV. lia.
  - pose proof (Qle_ceiling v) as F.
    assert (inject_Z x < inject_Z (Qceiling v)) by lra. rewrite <- Zlt_Qlt in *. rewrite <- Zle_Qle in *.
    change 1 with (inject_Z 1) in TV. rewrite <- inject_Z_plus, <- Zle_Qle in TV. lia.
Qed.

(** What holds at a node of depth [d]: the variables before [d] and those branched on above are closed. *)
Definition closed_below (cols : list nat) (k : nat) (a : node) : Prop := forall j, (j < k)%nat -> (j < length cols)%nat -> ~ open_at (n_lo a) (n_up a) cols j.

Lemma step_closed cols d a optimal infeasible feasible r i b :
  node_ok cols a -> node_ok cols b -> two_values cols a -> closed_below cols d a ->
  chooseVariable7 optimal infeasible feasible d cols (n_lo a) (n_up a) (n_sol a) = Some r -> sv_code r = 0%Z -> sv_index r = Some i ->
  (optimal = true -> infeasible = false) -> child a (var_of cols i) (sv_sol r (var_of cols i)) b ->
  (d <= i < length cols)%nat /\ closed_below cols (S i) b /\ two_values cols b /\ open_at (n_lo a) (n_up a) cols i.
Proof.
  intros Ka Kb TV CB E C0 IX OI CH.
  assert (VI : (i < length cols)%nat /\ sv_sol r (var_of cols i) = move_inside (n_lo a (var_of cols i)) (n_up a (var_of cols i)) (n_sol a (var_of cols i))).
  { unfold chooseVariable7 in E. destruct feasible; [injection E as <-; discriminate|]. destruct optimal; cbn [negb Z.eqb andb] in E.
    - destruct (Nat.ltb_spec d (length cols)) as [L|L]; [|destruct infeasible; [injection E as <-; discriminate|discriminate]].
      pose proof (scan_spec (n_lo a) (n_up a) cols d (Nat.lt_le_incl _ _ L)) as SS. destruct (first_unfixed _ _ _ _) as [[i' v]|]; [|discriminate].
      injection E as <-. cbn [sv_index] in IX. injection IX as ->. cbn [sv_sol]. destruct SS as (S1 & S2 & _). rewrite <- S2, Nat.eqb_refl. split; [lia|reflexivity].
    - destruct infeasible; [injection E as <-; discriminate|discriminate]. }
  destruct VI as [VI VE].
  destruct (fixed_order _ _ _ _ _ _ _ _ _ OI E) as [(X & _)|[(_ & _ & _ & _ & _ & i' & IX' & R & OP & BEF & _)|(X & _)]]; [congruence| |congruence].
  rewrite IX in IX'. injection IX' as <-. split; [exact R|].
  assert (CL : ~ open_at (n_lo b) (n_up b) cols i).
  { apply (child_closes cols a i (sv_sol r (var_of cols i)) b VI Ka Kb); [|exact TV|exact CH]. rewrite VE.
    destruct (Ka _ (var_in cols i VI)) as (I1 & I2 & I3). apply inside; [|exact I3]. pose proof (int_gap _ _ I1 I2 OP). specialize (TV _ (var_in cols i VI)). lra. }
  destruct CH as [CH _]. split; [|split; [|exact OP]].
  - intros j Hj Lj OJ. destruct (Nat.eq_dec j i) as [->|N]; [exact (CL OJ)|].
    assert (OA : open_at (n_lo a) (n_up a) cols j) by (unfold open_at in *; destruct (CH (var_of cols j)); lra).
    destruct (le_lt_dec d j) as [D|D]; [apply (BEF j); [lia|exact OA]|exact (CB j D Lj OA)].
  - intros c Hc. specialize (TV c Hc). destruct (CH c). lra.
Qed.

Lemma path_ok cols d a is e z : path cols d a is e z -> node_ok cols a.
Proof. destruct 1; assumption. Qed.
Lemma path_inv cols : forall d a is e z, path cols d a is e z -> two_values cols a -> forall k, (d <= k)%nat -> closed_below cols k a ->
  (forall i, In i is -> (k <= i < length cols)%nat) /\ (forall l1 i l2 j l3, is = l1 ++ i :: l2 ++ j :: l3 -> (i < j)%nat) /\
  closed_below cols e z /\ two_values cols z /\ node_ok cols z /\ e = (d + length is)%nat.
Proof.
  induction 1 as [d a Ka|d a optimal infeasible feasible r i b is e z Ka E C0 IX OI CH P IH]; intros TV k Hk CB.
  - split; [intros ? []|]. split; [intros l1 i l2 j l3 X; destruct l1; discriminate|]. split; [intros j Hj; apply CB; lia|]. split; [exact TV|]. split; [exact Ka|]. cbn [length]. lia.
  - pose proof (path_ok _ _ _ _ _ _ P) as Kb.
    destruct (step_closed cols d a optimal infeasible feasible r i b Ka Kb TV (fun j Hj => CB j (Nat.lt_le_trans _ _ _ Hj Hk)) E C0 IX OI CH) as (R & CB' & TV' & OP).
    assert (KI : (k <= i)%nat) by (destruct (le_lt_dec k i) as [L|L]; [exact L|destruct (CB i L (proj2 R) OP)]).
    destruct (IH TV' (S i)) as (I1 & I2 & I3 & I4 & I5 & I6); [lia|exact CB'|].
    split; [intros x [<-|Hx]; [lia|specialize (I1 x Hx); lia]|]. split; [|cbn [length]; repeat (split; [assumption|]); lia].
    intros l1 x l2 j l3 X. destruct l1 as [|y l1]; cbn [app] in X; injection X as -> X.
    + specialize (I1 j). rewrite X in I1. assert (In j (l2 ++ j :: l3)) by (apply in_or_app; right; left; reflexivity). specialize (I1 H). lia.
    + exact (I2 l1 x l2 j l3 X).
Qed.

(** From a root in which every listed variable has at most two values: no variable is branched on twice along a path,
    they come in their order, so no path is longer than their number. *)
Theorem fixed_order_path : forall cols a is e z, path cols 0 a is e z -> two_values cols a ->
  (forall l1 i l2 j l3, is = l1 ++ i :: l2 ++ j :: l3 -> (i < j)%nat) /\ (length is <= length cols)%nat /\ (forall i, In i is -> (i < length cols)%nat).
Proof.
  intros cols a is e z P TV. destruct (path_inv cols _ _ _ _ _ P TV 0%nat (Nat.le_0_l _)) as (I1 & I2 & _ & _ & _ & _); [intros j Hj; lia|].
  split; [exact I2|]. split; [|intros i Hi; apply I1, Hi].
  assert (INC : forall l k, (forall i, In i l -> (k <= i < length cols)%nat) -> (forall l1 i l2 j l3, l = l1 ++ i :: l2 ++ j :: l3 -> (i < j)%nat) -> (k <= length cols)%nat -> (length l + k <= length cols)%nat).
  { induction l as [|x l IHl]; intros k A B L; cbn [length]; [lia|]. destruct (A x (or_introl eq_refl)) as [A1 A2].
    specialize (IHl (S x)). assert (length l + S x <= length cols)%nat; [|lia]. apply IHl; [|intros l1 i l2 j l3 X; apply (B (x :: l1) i l2 j l3); rewrite X; reflexivity|lia].
    intros i Hi. split; [|apply A; right; exact Hi]. apply in_split in Hi. destruct Hi as (u & w & ->). apply (B [] x u i w). reflexivity. }
  pose proof (INC is 0%nat I1 I2 (Nat.le_0_l _)). lia.
Qed.
Print Assumptions fixed_order_path.

(** At a node reached that way no assertion fails, provided the clone's re-solve ends optimal or infeasible, and a
    solution is recognised as integer-feasible when all listed variables are fixed and the LP is optimal. *)
Theorem fixed_order_no_abort : forall cols a is e z optimal infeasible feasible, path cols 0 a is e z -> two_values cols a ->
  (optimal = true \/ infeasible = true) ->
  (optimal = true -> (forall c, In c cols -> n_up z c <= n_lo z c) -> feasible = true) ->
  chooseVariable7 optimal infeasible feasible e cols (n_lo z) (n_up z) (n_sol z) <> None.
Proof.
  intros cols a is e z optimal infeasible feasible P TV A1 A2.
  destruct (path_inv cols _ _ _ _ _ P TV 0%nat (Nat.le_0_l _)) as (_ & _ & I3 & _ & _ & _); [intros j Hj; lia|].
  assert (FX : (forall j, (e <= j < length cols)%nat -> ~ open_at (n_lo z) (n_up z) cols j) -> forall c, In c cols -> n_up z c <= n_lo z c).
  { intros F c Hc. destruct (In_nth cols c 0%nat Hc) as (j & Lj & Ej). assert (~ open_at (n_lo z) (n_up z) cols j) as N.
    { destruct (le_lt_dec e j) as [D|D]; [apply F; lia|apply I3; assumption]. }
    unfold open_at, var_of in N. rewrite Ej in N. apply Qnot_lt_le, N. }
  unfold chooseVariable7. destruct feasible; [discriminate|]. destruct optimal; cbn [negb Z.eqb andb].
  - destruct (Nat.ltb_spec e (length cols)) as [L|L].
    + pose proof (scan_spec (n_lo z) (n_up z) cols e (Nat.lt_le_incl _ _ L)) as SS. destruct (first_unfixed _ _ _ _) as [[i v]|]; [discriminate|].
      discriminate (A2 eq_refl (FX SS)).
    + assert (NO : forall j, (e <= j < length cols)%nat -> ~ open_at (n_lo z) (n_up z) cols j) by (intros j Hj; lia). discriminate (A2 eq_refl (FX NO)).
  - destruct A1 as [A1|A1]; [discriminate|]. rewrite A1. discriminate.
Qed.
Print Assumptions fixed_order_no_abort.

(** Refuted for general integer variables: with one variable 0 <= x <= 2 at its upper bound, the value handed on is the
    integer 1, the children [0,1] and [1,2] overlap, and at a child whose LP is optimal and fractional the assertion
    that the LP is infeasible fails. *)
Theorem general_integers_refuted : exists cols a r b,
  node_ok cols a /\ chooseVariable7 true false false 0 cols (n_lo a) (n_up a) (n_sol a) = Some r /\ sv_index r = Some 0%nat /\
  sv_sol r (var_of cols 0) == 1 /\ child a (var_of cols 0) (sv_sol r (var_of cols 0)) b /\ node_ok cols b /\
  path cols 0 a [0%nat] 1 b /\ n_lo b (var_of cols 0) < n_up b (var_of cols 0) /\
  chooseVariable7 true false false 1 cols (n_lo b) (n_up b) (n_sol b) = None.
Proof.
  set (a := {| n_lo := fun _ => 0; n_up := fun _ => 2; n_sol := fun _ => 2 |}).
  set (b := {| n_lo := fun _ => 0; n_up := fun _ => 1; n_sol := fun _ => 1 # 2 |}).
  assert (Ka : node_ok [0%nat] a) by (intros c _; split; [exists 0%Z; reflexivity|split; [exists 2%Z; reflexivity|split; vm_compute; discriminate]]).
  assert (Kb : node_ok [0%nat] b) by (intros c _; split; [exists 0%Z; reflexivity|split; [exists 1%Z; reflexivity|split; vm_compute; discriminate]]).
  set (r := {| sv_code := 0; sv_index := Some 0%nat; sv_way := 0; sv_saved := false;
               sv_sol := fun j => if Nat.eqb j 0 then move_inside 0 2 2 else 2 |}).
  assert (CH : child a 0%nat (sv_sol r 0%nat) b).
  { split; [intro j; split; vm_compute; discriminate|]. left. vm_compute. discriminate. }
  exists [0%nat], a, r, b. split; [exact Ka|]. split; [reflexivity|]. split; [reflexivity|]. split; [vm_compute; reflexivity|]. split; [exact CH|]. split; [exact Kb|].
  split; [|split; [vm_compute; reflexivity|reflexivity]].
  apply (path_down [0%nat] 0 a true false false r 0%nat b [] 1 b Ka); [reflexivity|reflexivity|reflexivity|reflexivity|exact CH|apply path_here; exact Kb].
Qed.
Print Assumptions general_integers_refuted.

(** Refuted: "an infeasible node gives -1": the re-solve is ignored when the solution the solver still holds is
    integer-feasible, and that solution is saved. *)
Theorem infeasible_node_refuted : forall depth cols lower upper sol, exists r,
  chooseVariable7 false true true depth cols lower upper sol = Some r /\ sv_code r = 1%Z /\ sv_saved r = true.
Proof. intros. eexists. split; [reflexivity|]. split; reflexivity. Qed.
Print Assumptions infeasible_node_refuted.

(** Example: three binary variables, the second fixed by propagation: the path branches on objects 0 and 2. *)
Definition exa : node := {| n_lo := fun _ => 0; n_up := fun _ => 1; n_sol := fun _ => 1 |}.
Definition exb : node := {| n_lo := fun c => if Nat.eqb c 5 then 1 else 0; n_up := fun c => if Nat.eqb c 4 then 0 else 1; n_sol := fun c => if Nat.eqb c 4 then 0 else 1 |}.
Definition exc : node := {| n_lo := fun c => if Nat.eqb c 4 then 0 else 1; n_up := fun c => if Nat.eqb c 4 then 0 else 1; n_sol := fun c => if Nat.eqb c 4 then 0 else 1 |}.
Example fixed_order_meets : path [4; 5; 6]%nat 0 exa [0; 2]%nat 2 exc /\ two_values [4; 5; 6]%nat exa.
Proof.
  assert (K : forall a, In a [exa; exb; exc] -> node_ok [4; 5; 6]%nat a).
  { intros a [<-|[<-|[<-|[]]]] c [<-|[<-|[<-|[]]]]; (split; [first [exists 0%Z; reflexivity|exists 1%Z; reflexivity]|split; [first [exists 0%Z; reflexivity|exists 1%Z; reflexivity]|split; vm_compute; discriminate]]). }
  split; [|intros c _; vm_compute; discriminate].
  eapply (path_down _ 0 exa true false false _ 0%nat exb [2]%nat); [apply K; left; reflexivity|reflexivity|reflexivity|reflexivity|reflexivity| |].
  - split; [intro j; cbn; destruct (Nat.eqb j 4), (Nat.eqb j 5); split; vm_compute; discriminate|left; vm_compute; discriminate].
  - eapply (path_down _ 1 exb true false false _ 2%nat exc []); [apply K; right; left; reflexivity|reflexivity|reflexivity|reflexivity|reflexivity| |].
    + split; [intro j; cbn [n_lo n_up exb exc]; destruct (Nat.eqb j 4) eqn:E4, (Nat.eqb j 5) eqn:E5; try (apply Nat.eqb_eq in E4, E5; lia); split; vm_compute; discriminate|right; vm_compute; discriminate].
    + apply path_here, K. right. right. left. reflexivity.
Qed.
